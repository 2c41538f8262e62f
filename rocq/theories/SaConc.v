(** Overlapping identity-provider calls act one after the other unless they are at odds. *)
From Coq Require Import ZifyN ZifyNat.
From stdpp Require Import gmap.
From Verif Require Import Bytes Base64 Base64Proofs Go Json JsonProofs Uuid UuidProofs Time TimeProofs Types TypesProofs World Logic
  Cryptor CryptorProofs Io IoSpec IoProofs Id Data D1 D1Proofs Password Standalone Spec StandaloneSpec MiscFacts TokenFacts StandaloneProofs StandaloneRefine
  D1ConcSpec SaConcSpec.
Local Open Scope bool_scope.
Local Open Scope N_scope.
Notation SU := DataTypeSealedUser.
Notation SG := DataTypeSealedGroup.
Notation txt b := (uuid_text (uuid_v4 b)).

Lemma su_sg : SU <> SG.
Proof. discriminate. Qed.

Lemma carries_mono tr tr' c uid : carries tr c uid -> carries (tr ++ tr') c uid.
Proof.
  intros (tok & t & pw & tok' & x & H1 & H2 & H3 & H4). exists tok, t, pw, tok', x. split; [exact H1|]. split; [|split; [|exact H4]].
  - clear -H2. revert t H2. induction tr as [|[c0|t0 r0] tr IH]; cbn; intros t H2; [destruct t; discriminate| |auto]. destruct t; cbn in *; auto.
  - apply in_or_app. now left.
Qed.
Lemma changes_mono tr tr' c uid : changes tr c uid -> changes (tr ++ tr') c uid.
Proof. destruct c; cbn; auto using carries_mono. Qed.
Lemma acts_for_mono tr tr' c uid : acts_for tr c uid -> acts_for (tr ++ tr') c uid.
Proof. destruct c; cbn; auto using carries_mono. Qed.

(** The identity of a caller whose entry and groups are the same later. *)
Lemma resolves_grow d d' now tok i : resolves d now tok (Ok i) -> incl (d_sessions d) (d_sessions d') ->
  (forall g s, d_groups d !! g = Some s -> d_groups d' !! g = Some s) -> d_users d' !! i_id i = d_users d !! i_id i -> resolves d' now tok (Ok i).
Proof.
  intros [(uid & x & (s & S1 & S2) & Hn & C)|[_ C]] Hs Hg Hu; [|discriminate]. destruct (d_users d !! uid) as [a|] eqn:Ea; [|discriminate].
  destruct C as [(i' & D & C)|(? & _ & _ & C)]; [|discriminate]. injection C as <-. pose proof D as (<- & D2 & D3 & D4).
  left. exists (i_id i), x. split; [exists s; auto|]. split; [exact Hn|]. rewrite Hu, Ea. left. exists i. split; [|reflexivity].
  split; [reflexivity|]. split; [exact D2|]. split.
  - intros g Hi. destruct (D3 g Hi) as [s0 E]. eauto.
  - intros g s0. rewrite D4. split; intros [H1 H2]; (split; [exact H1|]); [auto|]. destruct (D3 g H1) as [s1 E]. rewrite (Hg _ _ E) in H2. congruence.
Qed.

(** The scopes of the groups of a user. *)
Fixpoint groups_of (d : directory) (gids : list bytes) (acc : gmap bytes N) : res (gmap bytes N) :=
  match gids with
  | [] => Ok acc
  | g :: rest => match d_groups d !! g with None => Err EIdGroupNotFound | Some s => groups_of d rest (<[g := s]> acc) end
  end.
Lemma groups_of_spec d : forall gids acc,
  (exists gm, groups_of d gids acc = Ok gm /\ (forall g, In g gids -> exists s, d_groups d !! g = Some s) /\
     forall g s, gm !! g = Some s <-> (In g gids /\ d_groups d !! g = Some s) \/ (~ In g gids /\ acc !! g = Some s)) \/
  (exists g, In g gids /\ d_groups d !! g = None /\ groups_of d gids acc = Err EIdGroupNotFound).
Proof.
  induction gids as [|gid rest IH]; intros acc; cbn [groups_of].
  - left. exists acc. split; [reflexivity|]. split; [intros g []|]. intros g s. split; [auto|]. intros [[[] _]|[_ E]]. exact E.
  - destruct (d_groups d !! gid) as [s0|] eqn:Eg.
    2:{ right. exists gid. split; [now left|]. auto. }
    destruct (IH (<[gid := s0]> acc)) as [(gm & E & G1 & G2)|(g & G1 & G2 & E)]; rewrite E.
    + left. exists gm. split; [reflexivity|]. split; [intros g [<-|Hg]; eauto|]. intros g s'. rewrite G2.
      destruct (decide (g = gid)) as [->|Hn].
      * rewrite lookup_insert. split.
        -- intros [[Hi E']|[_ E']]; left; (split; [now left|congruence]).
        -- intros [[_ E']|[N _]]; [|destruct N; now left]. rewrite Eg in E'. injection E' as <-.
           destruct (in_dec (list_eq_dec byte_eq_dec) gid rest); [left|right]; auto.
      * rewrite lookup_insert_ne by auto. cbn [In]. split.
        -- intros [[Hi E']|[Hi E']]; [left; auto|right]. split; [|exact E']. intros [C|C]; [now apply Hn|auto].
        -- intros [[[Hi|Hi] E']|[Hi E']]; [congruence|left; auto|right; auto].
    + right. exists g. split; [now right|auto].
Qed.

(** Positions of three draws, one after the other. *)
Definition pos3 (p0 p1 p2 i : nat) : nat := match i with 0 => p0 | 1 => p1 | Datatypes.S (Datatypes.S j) => p2 + j end%nat.
Lemma pos3_lt p0 p1 p2 i : (p0 < p1)%nat -> (p1 < p2)%nat -> (pos3 p0 p1 p2 i < pos3 p0 p1 p2 (Datatypes.S i))%nat.
Proof. intros H1 H2. destruct i as [|[|i]]; cbn; lia. Qed.

Section Conc.
  Context {S I : Type} (e : env) (v : view S) (io : provider S) (Hio : cell_storage v io) (k : sa_keys) (Hc : forall n, time_wf (clock e n)).
  Notation W := (world S I).
  Context (n0 n1 : nat) (Hids : ids_differ e n0 n1).
  Notation spares := (@SaConcSpec.spares S I v).
  Notation slot w := (v_map v (w_io w)).
  Notation uc := (aes_cryptor e (s_uek k)).
  Notation gc := (aes_cryptor e (s_gek k)).
  Notation tc := (aes_cryptor e (s_tek k)).

  Lemma spares_refl w : v_inv v (w_io w) -> spares w w.
  Proof. intros H. split; [exact H|]. split; [lia|]. auto. Qed.

  Lemma txt_inj i j b b' : draw e i 16 = Ok b -> draw e j 16 = Ok b' -> txt b = txt b' -> uuid_v4 b = uuid_v4 b'.
  Proof.
    intros H1 H2 E. apply uuid_text_inj; [| |exact E]; apply uuid_v4_wf.
    - apply draw_length in H1. unfold blen in H1. lia.
    - apply draw_length in H2. unfold blen in H2. lia.
  Qed.

  (** ** Steps that leave users and groups alone *)
  Fixpoint quiet {B} (p : prog W B) (Q : B -> Prop) : Prop :=
    match p with
    | Ret b => Q b
    | Step f q => forall w, v_inv v (w_io w) -> spares w (snd (f w)) /\ quiet (q (fst (f w))) Q
    end.
  Lemma qu_mono {B} (p : prog W B) (Q Q' : B -> Prop) : (forall b, Q b -> Q' b) -> quiet p Q -> quiet p Q'.
  Proof. intros HQ. induction p as [b|X f q IH]; cbn [quiet]; [auto|]. intros H w Hw. destruct (H w Hw). auto. Qed.
  Lemma qu_bind {B C} (p : prog W B) (q : B -> prog W C) Q : quiet p (fun b => quiet (q b) Q) -> quiet (bind p q) Q.
  Proof. induction p as [b|X f c IH]; cbn [quiet bind]; [auto|]. intros H w Hw. destruct (H w Hw). auto. Qed.
  Lemma qu_bindR {B C} (p : prog W (res B)) (q : B -> prog W (res C)) Q :
    quiet p (fun r => match r with Ok a => quiet (q a) Q | Err x => Q (Err x) | Panic => Q Panic end) -> quiet (bindR p q) Q.
  Proof. intros H. unfold bindR. apply qu_bind. eapply qu_mono; [|exact H]. intros [a|x|]; cbn [quiet]; auto. Qed.
  Lemma qu_act {B} (f : W -> B * W) (Q : B -> Prop) : (forall w, w_io (snd (f w)) = w_io w /\ (w_draws w <= w_draws (snd (f w)))%nat /\ Q (fst (f w))) -> quiet (act f) Q.
  Proof. intros H w Hw. destruct (H w) as (E & L & HQ). split; [|exact HQ]. unfold SaConcSpec.spares. rewrite E. auto. Qed.
  Definition rng_dead : Prop := exists i n, draw e i n = Err ERandom.
  Lemma qu_get_bytes n : quiet (get_bytes e n) (fun r => (exists b, r = Ok b /\ length b = N.to_nat n) \/ (r = Err ERandom /\ rng_dead)).
  Proof.
    unfold get_bytes. apply qu_act. intros w. split; [reflexivity|]. split; [cbn; lia|]. cbn [fst].
    destruct (draw_cases e (w_draws w) n) as [(b & E & L)|E]; rewrite E; [eauto|]. right. split; [reflexivity|]. eexists _, _. exact E.
  Qed.
  Lemma qu_seal kek pt aad key nonce : length key = 32%nat -> length nonce = 12%nat ->
    quiet (bindR (lift (Gcm.aes_gcm_encrypt pt aad key nonce)) (fun ct => bindR (lift (Kwp.aes_kwp_wrap kek key)) (fun wk =>
      bind (act (fun w : W => (tt, set_log w (mkEntry kek aad wk ct pt :: w_log w)))) (fun _ => Ret (Ok (wk, ct))))))
      (fun r => exists wk ct, r = Ok (wk, ct) /\ aes_open kek aad wk ct = Ok pt).
  Proof.
    intros Lk Ln. destruct (aes_seal_open kek pt aad key nonce Lk Ln) as (wk & ct & Hs & Ho & _). unfold aes_seal in Hs. unfold lift.
    destruct (Gcm.aes_gcm_encrypt pt aad key nonce) as [ct'| |] eqn:Ec; cbn [res_bind] in Hs; try discriminate.
    destruct (Kwp.aes_kwp_wrap kek key) as [wk'| |] eqn:Ew; cbn [res_bind] in Hs; try discriminate.
    injection Hs as -> ->. apply qu_bindR. cbn [quiet]. apply qu_bindR. cbn [quiet]. apply qu_bind, qu_act. intros w. split; [reflexivity|]. split; [cbn; lia|].
    cbn [quiet]. eauto.
  Qed.
  Lemma qu_aes_enc kek pt aad : quiet (aes_enc e kek pt aad) (fun r => (exists wk ct, r = Ok (wk, ct) /\ aes_open kek aad wk ct = Ok pt) \/ (r = Err ERandom /\ rng_dead)).
  Proof.
    unfold aes_enc. apply qu_bindR. eapply qu_mono; [|apply qu_get_bytes]. intros r [(key & -> & Lk)|[-> HR]]; [|auto].
    apply qu_bindR. eapply qu_mono; [|apply qu_get_bytes]. intros r [(nonce & -> & Ln)|[-> HR]]; [|auto].
    eapply qu_mono; [|apply qu_seal; [exact Lk|exact Ln]]. auto.
  Qed.
  Lemma qu_decrypt_json {A} kek (dec : json -> option A) aad wk ct : quiet (decrypt_json (aes_cryptor e kek) dec aad wk ct) (fun r => r = open_json kek dec aad wk ct).
  Proof.
    unfold decrypt_json, open_json. apply qu_bindR. cbn [c_dec aes_cryptor]. unfold aes_dec. apply qu_act. intros w.
    split; [destruct (_ && _); reflexivity|]. split; [destruct (_ && _); cbn; lia|]. cbn [fst]. destruct (aes_open _ _ _ _) as [pt|x|]; cbn [res_bind]; try reflexivity.
    destruct (unmarshal dec pt); reflexivity.
  Qed.
  Lemma qu_time_now : quiet (time_now e) (fun t => exists n, t = clock e n).
  Proof. unfold time_now. apply qu_act. intros w. split; [reflexivity|]. split; [cbn; lia|]. cbn. eauto. Qed.
  Lemma qu_user_seal a uid : account_ok uid a -> quiet (user_seal uc (account_user a) uid)
    (fun r => (exists su, r = Ok su /\ su_uid su = uid /\ user_open (s_uek k) (print (enc_sealed_user su)) = Ok (account_user a)) \/ (r = Err ERandom /\ rng_dead)).
  Proof.
    intros (V1 & V2 & V3 & V4). unfold user_seal, encrypt_json. cbn [c_enc aes_cryptor]. apply qu_bindR. eapply qu_mono; [|apply qu_aes_enc].
    intros r [(wk & ct & -> & Ho)|[-> HR]]; [|auto]. cbn [quiet]. left. eexists. split; [reflexivity|]. split; [reflexivity|].
    unfold user_open. rewrite sealed_user_roundtrip. cbn [su_uid su_ct su_wk]. rewrite sanitize_valid by exact V1.
    eapply open_json_ok; [exact Ho|]. rewrite user_roundtrip by exact V2. f_equal. unfold account_user. cbn [u_hash u_scopes u_groups norm_set].
    f_equal. f_equal. apply set_eq. intros g. rewrite elem_of_map. split.
    - intros (g' & -> & Hg). rewrite sanitize_valid; auto.
    - intros Hg. exists g. split; [now rewrite sanitize_valid by auto|exact Hg].
  Qed.

  (** An id that is not going to be drawn. *)
  Definition settled (w : W) (id : bytes) : Prop := forall i b, (w_draws w <= i < n1)%nat -> draw e i 16 = Ok b -> txt b <> id.
  Lemma settled_mono w w' id : (w_draws w <= w_draws w')%nat -> settled w id -> settled w' id.
  Proof. intros H Hs i b Hi. apply Hs. lia. Qed.
  Lemma drawn_settled w i b : (n0 <= i < w_draws w)%nat -> (w_draws w <= n1)%nat -> draw e i 16 = Ok b -> settled w (txt b).
  Proof. intros Hi Hn Hb j b' Hj Hb' E. apply (txt_inj _ _ _ _ Hb' Hb) in E. eapply (Hids j i); [..|exact E]; eauto; lia. Qed.

  (** ** At every moment *)
  (** What is stored for a user; [E] are the ids of all users there have been. *)
  Definition user_cell (d : directory) (E : gset bytes) (uid : bytes) (o : option bytes) (a : option account) : Prop :=
    match a with
    | None => o = None
    | Some a => exists b, o = Some b /\ user_open (s_uek k) b = Ok (account_user a) /\ account_ok uid a /\ uid ∈ E /\
        (forall g, g ∈ ac_groups a -> g ∈ E \/ is_Some (d_groups d !! g))
    end.
  Definition token_ok (s : session) : Prop :=
    exists wk ct aad, token_from_string (se_token s) = Ok (mkSealedToken (se_exp s) (Some ct) (Some wk)) /\
      time_wf (se_exp s) /\ enc_time (se_exp s) = Some aad /\
      aes_open (s_tek k) (print aad) wk ct = Ok (print (jbytes (Some (se_uid s)))).
  Record Gl (w : W) (d : directory) (E : gset bytes) : Prop := mkGl {
    gl_inv : v_inv v (w_io w);
    gl_n0 : (n0 <= w_draws w)%nat;
    gl_user : forall uid, user_cell d E uid (slot w uid SU) (d_users d !! uid);
    gl_group : forall gid s, d_groups d !! gid = Some s -> exists b, slot w gid SG = Some b /\ group_rec (s_gek k) b s;
    gl_ever : forall g, g ∈ E -> slot w g SG = None /\ settled w g;
    gl_new : forall i b, (w_draws w <= i < n1)%nat -> draw e i 16 = Ok b -> slot w (txt b) SU = None /\ slot w (txt b) SG = None;
    gl_sess : forall s, In s (d_sessions d) -> token_ok s }.
  Lemma gl_spares w w' d E : spares w w' -> Gl w d E -> Gl w' d E.
  Proof.
    intros (H1 & H2 & H3) [G1 G2 G3 G4 G5 G6 G7]. constructor; [exact H1|lia|..|exact G7].
    - intros uid. rewrite H3 by auto. apply G3.
    - intros gid s Hs. rewrite H3 by auto. now apply G4.
    - intros g Hg. rewrite H3 by auto. destruct (G5 g Hg). split; [assumption|]. eapply settled_mono; eauto.
    - intros i b Hi Hb. rewrite !H3 by auto. apply (G6 i b); [lia|exact Hb].
  Qed.
  Lemma gl_no_user w d E uid : Gl w d E -> slot w uid SU = None -> d_users d !! uid = None.
  Proof. intros G H. pose proof (gl_user _ _ _ G uid) as C. destruct (d_users d !! uid); [|reflexivity]. destruct C as (b & C & _). congruence. Qed.
  Lemma gl_no_group w d E g : Gl w d E -> slot w g SG = None -> d_groups d !! g = None.
  Proof. intros G H. destruct (d_groups d !! g) as [s|] eqn:Es; [|reflexivity]. destruct (gl_group _ _ _ G g s Es) as (b & C & _). congruence. Qed.
  Lemma gl_says w d E tok st uid exp : Gl w d E -> token_from_string tok = Ok st -> says d tok uid exp ->
    exp = st_exp st /\ exists aad, enc_time (st_exp st) = Some aad /\ open_json (s_tek k) dec_bytes aad (st_wk st) (st_ct st) = Ok (Some uid).
  Proof.
    intros G Ht (s & Hi & (t & T1 & T2) & <- & <-). rewrite Ht in T2. injection T2 as <-.
    destruct (gl_sess _ _ _ G s Hi) as (wk & ct & aad & E' & Hw & Ha & Ho). rewrite T1 in E'. injection E' as ->. cbn [st_exp st_wk st_ct].
    split; [reflexivity|]. exists aad. split; [exact Ha|]. eapply open_json_ok; [exact Ho|]. rewrite unmarshal_print by apply jbytes_wf. apply dec_bytes_jbytes.
  Qed.

  (** ** One call among others *)
  Definition same_pass (o o' : option account) : Prop := option_map (fun a => (ac_salt a, ac_hash a)) o' = option_map (fun a => (ac_salt a, ac_hash a)) o.
  Definition KT := W -> directory -> gset bytes -> Prop.
  Definition KTrue : KT := fun _ _ _ => True.
  Record grows (w : W) (d : directory) (E : gset bytes) (w' : W) (d' : directory) (E' : gset bytes) : Prop := mkGrows {
    gr_draws : (w_draws w <= w_draws w')%nat;
    gr_sess : incl (d_sessions d) (d_sessions d');
    gr_groups : forall g s, d_groups d !! g = Some s -> d_groups d' !! g = Some s;
    gr_ever : E ⊆ E' }.
  Lemma grows_refl w d E : grows w d E w d E.
  Proof. constructor; auto. intros x Hx; exact Hx. Qed.
  Lemma grows_trans w1 d1 E1 w2 d2 E2 w3 d3 E3 : grows w1 d1 E1 w2 d2 E2 -> grows w2 d2 E2 w3 d3 E3 -> grows w1 d1 E1 w3 d3 E3.
  Proof. intros [A1 A2 A3 A4] [B1 B2 B3 B4]. constructor; [lia|intros x Hx; auto|auto|]. set_solver. Qed.
  Lemma grows_spares w d E w' : spares w w' -> grows w d E w' d E.
  Proof. intros (_ & H & _). constructor; auto. intros x Hx; exact Hx. Qed.

  Section Thread.
    Context (c : sa_call) (tr0 : list sa_obs).
    Notation outcome := (option (res sa_reply)).
    Definition foot (uid : bytes) : Prop := changes tr0 c uid \/ acts_for tr0 c uid \/ logs_in c uid.
    (** What the others leave alone while the call runs; [mine] is the id the call has drawn. *)
    Record rely (mine : option bytes) (w : W) (d : directory) (E : gset bytes) (w' : W) (d' : directory) (E' : gset bytes) : Prop := mkRely {
      re_grows : grows w d E w' d' E';
      re_user : forall uid, changes tr0 c uid \/ acts_for tr0 c uid \/ mine = Some uid -> slot w' uid SU = slot w uid SU /\ d_users d' !! uid = d_users d !! uid;
      re_pass : forall uid, logs_in c uid -> same_pass (d_users d !! uid) (d_users d' !! uid);
      re_mine : forall g, mine = Some g -> slot w' g SG = slot w g SG /\ d_groups d' !! g = d_groups d !! g /\ (g ∈ E' <-> g ∈ E) }.
    (** What it leaves alone itself. *)
    Record gives_way (mine : option bytes) (w : W) (d : directory) (E : gset bytes) (w' : W) (d' : directory) (E' : gset bytes) : Prop := mkGW {
      gw_grows : grows w d E w' d' E';
      gw_user : forall uid, ~ changes tr0 c uid -> mine <> Some uid -> slot w' uid SU = slot w uid SU /\ d_users d' !! uid = d_users d !! uid;
      gw_pass : forall uid, ~ repasses c uid -> mine <> Some uid -> same_pass (d_users d !! uid) (d_users d' !! uid);
      gw_mine : forall g, mine <> Some g -> slot w' g SG = slot w g SG /\ d_groups d' !! g = d_groups d !! g /\ (g ∈ E' <-> g ∈ E) }.
    Lemma rely_spares mine w w' d E : spares w w' -> rely mine w d E w' d E.
    Proof. intros H. pose proof H as (_ & _ & H3). constructor; [now apply grows_spares|..]; intros; rewrite ?H3 by auto; try split; auto; try reflexivity. Qed.
    Lemma gw_spares mine w w' d E : spares w w' -> gives_way mine w d E w' d E.
    Proof. intros H. pose proof H as (_ & _ & H3). constructor; [now apply grows_spares|..]; intros; rewrite ?H3 by auto; try split; auto; try reflexivity. Qed.
    Lemma rely_more id w d E w' d' E' : rely (Some id) w d E w' d' E' -> rely None w d E w' d' E'.
    Proof. intros [A B C D]. constructor; [exact A| |exact C|discriminate]. intros uid [H|[H|H]]; [apply B; auto..|discriminate]. Qed.
    Definition stable (mine : option bytes) (K : KT) : Prop :=
      forall w d E w' d' E', rely mine w d E w' d' E' -> K w d E -> K w' d' E'.
    Lemma stable_true mine : stable mine KTrue.
    Proof. intros w d E w' d' E' _ H. exact H. Qed.
    Lemma stable_more id K : stable None K -> stable (Some id) K.
    Proof. intros H w d E w' d' E' R. apply H. eapply rely_more; exact R. Qed.
    Lemma stable_and mine (K K' : KT) : stable mine K -> stable mine K' -> stable mine (fun w d E => K w d E /\ K' w d E).
    Proof. intros H H' w d E w' d' E' R [A B]. eauto. Qed.
    Lemma stable_draws mine n : stable mine (fun w _ _ => (n < w_draws w)%nat).
    Proof. intros w d E w' d' E' [[H _ _ _] _ _ _] A. lia. Qed.
    Lemma stable_grown mine w0 d0 E0 : stable mine (fun w d E => grows w0 d0 E0 w d E).
    Proof. intros w d E w' d' E' [H _ _ _] A. eapply grows_trans; eauto. Qed.
    Lemma stable_user mine uid o a : changes tr0 c uid \/ acts_for tr0 c uid -> stable mine (fun w d _ => slot w uid SU = o /\ d_users d !! uid = a).
    Proof. intros Hu w d E w' d' E' [_ H _ _] [<- <-]. apply H. tauto. Qed.
    Definition vacant (id : bytes) : KT := fun w d E => slot w id SU = None /\ d_users d !! id = None /\ slot w id SG = None /\ d_groups d !! id = None /\ ~ (id ∈ E).
    Lemma stable_vacant id : stable (Some id) (vacant id).
    Proof.
      intros w d E w' d' E' [_ H1 _ H2] (A & B & C & D & F). unfold vacant. destruct (H1 id) as [-> ->]; [auto|]. destruct (H2 id eq_refl) as (-> & -> & HE).
      rewrite A, B, C, D. intuition.
    Qed.

    Definition gives (r : res sa_reply) (id : bytes) : Prop := (exists pw, r = Ok (SRUser id pw)) \/ r = Ok (SRGroup id).
    Definition calm (w : W) (mine : option bytes) : Prop := (forall uid, foot uid -> settled w uid) /\ (forall id, mine = Some id -> settled w id).
    Definition follows (w : W) (mine mine' : option bytes) (w' : W) : Prop :=
      mine' = mine \/ (mine = None /\ (w_draws w < w_draws w')%nat /\ exists b, draw e (w_draws w) 16 = Ok b /\ mine' = Some (txt b)).
    (** The call acts in this step, or not. *)
    Definition acts (mine' : option bytes) (com : outcome) (d : directory) (com' : outcome) (d' : directory) (ev : option sa_event) : Prop :=
      match ev with
      | None => com' = com /\ d' = d
      | Some ev => com = None /\ com' = Some (sv_reply ev) /\ sv_call ev = c /\ outside_ok e (sv_x ev) /\
          sa_step (sv_x ev) c d (sv_reply ev) d' /\ (forall id, gives (sv_reply ev) id -> mine' = Some id)
      end.
    Fixpoint lw {B} (p : prog W B) (Q : B -> option bytes -> KT -> outcome -> Prop) (mine : option bytes) (K : KT) (com : outcome) : Prop :=
      match p with
      | Ret b => Q b mine K com
      | Step f q => forall w d E, stable mine K -> Gl w d E -> K w d E -> calm w mine -> (w_draws (snd (f w)) <= n1)%nat ->
          exists mine' (K' : KT) com' d' E' ev, stable mine' K' /\ Gl (snd (f w)) d' E' /\ K' (snd (f w)) d' E' /\
            gives_way mine' w d E (snd (f w)) d' E' /\ follows w mine mine' (snd (f w)) /\ acts mine' com d com' d' ev /\ lw (q (fst (f w))) Q mine' K' com'
      end.
    Lemma lw_mono {B} (p : prog W B) (Q Q' : B -> option bytes -> KT -> outcome -> Prop) mine (K : KT) (com : outcome) :
      (forall b mine K com, Q b mine K com -> Q' b mine K com) -> lw p Q mine K com -> lw p Q' mine K com.
    Proof.
      intros HQ. revert mine K com. induction p as [b|X f q IH]; cbn [lw]; intros mine K com H; [auto|]. intros w d E H0 HG HC HA HB.
      destruct (H w d E H0 HG HC HA HB) as (mine' & K' & com' & d' & E' & ev & H1 & H2 & H3 & H4 & H5 & H6 & H7). exists mine', K', com', d', E', ev. auto 10.
    Qed.
    Lemma lw_bind {B C} (p : prog W B) (q : B -> prog W C) Q mine (K : KT) (com : outcome) : lw p (fun b mine K com => lw (q b) Q mine K com) mine K com -> lw (bind p q) Q mine K com.
    Proof.
      revert mine K com. induction p as [b|X f q' IH]; cbn [lw bind]; intros mine K com H; [auto|]. intros w d E H0 HG HC HA HB.
      destruct (H w d E H0 HG HC HA HB) as (mine' & K' & com' & d' & E' & ev & H1 & H2 & H3 & H4 & H5 & H6 & H7). exists mine', K', com', d', E', ev. auto 10.
    Qed.
    Lemma lw_bindR {B C} (p : prog W (res B)) (q : B -> prog W (res C)) Q mine K com :
      lw p (fun r mine K com => match r with Ok a => lw (q a) Q mine K com | Err x => Q (Err x) mine K com | Panic => Q Panic mine K com end) mine K com -> lw (bindR p q) Q mine K com.
    Proof. intros H. unfold bindR. apply lw_bind. eapply lw_mono; [|exact H]. intros [a|x|] mine' K' com'; cbn [lw]; auto. Qed.
    Lemma lw_map_err {B} h (p : prog W (res B)) (Q : res B -> option bytes -> KT -> outcome -> Prop) mine (K : KT) (com : outcome) :
      lw p (fun r mine K com => Q (match r with Ok a => Ok a | Err x => Err (h x) | Panic => Panic end) mine K com) mine K com -> lw (map_err h p) Q mine K com.
    Proof. intros H. unfold map_err. apply lw_bind. eapply lw_mono; [|exact H]. intros r mine' K' com'; cbn [lw]; auto. Qed.
    Lemma lw_ret_map {A B} (h : A -> B) (p : prog W (res A)) (Q : res B -> option bytes -> KT -> outcome -> Prop) mine (K : KT) (com : outcome) :
      lw p (fun r mine K com => Q (res_map h r) mine K com) mine K com -> lw (ret_map h p) Q mine K com.
    Proof. intros H. unfold ret_map. apply lw_bind. eapply lw_mono; [|exact H]. intros r mine' K' com' HQ. exact HQ. Qed.
    Lemma lw_quiet {B} (p : prog W B) (P : B -> Prop) (Q : B -> option bytes -> KT -> outcome -> Prop) mine (K : KT) (com : outcome) : quiet p P ->
      (forall b, P b -> Q b mine K com) -> lw p Q mine K com.
    Proof.
      induction p as [b|X f q IH]; cbn [lw quiet]; intros H HQ; [auto|].
      intros w d E H0 HG HC HA _. destruct (H w (gl_inv _ _ _ HG)) as [H1 H2]. exists mine, K, com, d, E, None.
      split; [exact H0|]. split; [eapply gl_spares; eauto|]. split; [eapply H0; [apply rely_spares; exact H1|exact HC]|]. split; [now apply gw_spares|].
      split; [now left|]. split; [split; reflexivity|]. auto.
    Qed.
    (** Reading an entry. *)
    Lemma lw_get id dt (Q : res bytes -> option bytes -> KT -> outcome -> Prop) mine (K : KT) (com : outcome) : dt < 65536 ->
      (forall w d E, stable mine K -> Gl w d E -> K w d E -> exists (K' : KT) com' ev, stable mine K' /\ K' w d E /\ acts mine com d com' d ev /\
         Q (match slot w id dt with Some b => Ok b | None => Err EIoNotFound end) mine K' com') ->
      lw (on_io (io_get io id dt)) Q mine K com.
    Proof.
      intros Hdt H. pose proof (cell_get v io Hio id dt Hdt) as HA.
      destruct (io_get io id dt) as [r|X f q]; [destruct HA|]. cbn [on_io lw]. intros w d E H0 HG HC _ _.
      destruct (HA (w_io w) (gl_inv _ _ _ HG)) as (A1 & A2 & A3). destruct (f (w_io w)) as [x s'] eqn:Ef. cbn [fst snd] in *. rewrite A3. cbn [on_io lw].
      destruct (H w d E H0 HG HC) as (K' & com' & ev & B1 & B2 & B3 & B4).
      assert (HK : spares w (set_io w s')) by (split; [exact A1|]; split; [cbn; lia|]; intros; cbn [w_io set_io]; apply A2).
      exists mine, K', com', d, E, ev. split; [exact B1|]. split; [eapply gl_spares; eauto|]. split; [eapply B1; [apply rely_spares; exact HK|exact B2]|].
      split; [now apply gw_spares|]. split; [now left|]. split; [exact B3|exact B4].
    Qed.
    (** Writing one. *)
    Lemma lw_write id dt cur new r (p : prog S (res unit)) (Q : res unit -> option bytes -> KT -> outcome -> Prop) mine (K : KT) (com : outcome) :
      one_write v id dt cur new r p -> (forall w d E, Gl w d E -> K w d E -> slot w id dt = cur) ->
      (new = None -> Q r mine K com) ->
      (forall y w d E w', new = Some y -> stable mine K -> Gl w d E -> K w d E -> calm w mine -> v_inv v (w_io w') -> w_draws w' = w_draws w -> seq (slot w') (upd (slot w) id dt y) ->
         exists (K' : KT) com' d' E' ev, stable mine K' /\ Gl w' d' E' /\ K' w' d' E' /\ gives_way mine w d E w' d' E' /\ acts mine com d com' d' ev /\ Q r mine K' com') ->
      lw (on_io p) Q mine K com.
    Proof.
      intros Hw Hcur HN HY. induction p as [b|X f q IH]; cbn [one_write on_io lw] in *.
      - destruct Hw as [-> ->]. auto.
      - intros w d E H0 HG HC HA _. destruct (Hw (w_io w) (gl_inv _ _ _ HG) (Hcur w d E HG HC)) as [A1 A2].
        destruct (f (w_io w)) as [x s'] eqn:Ef. cbn [fst snd] in *. destruct A2 as [[A2 A3]|(y & Ey & A2 & A3)].
        + assert (HK : spares w (set_io w s')) by (split; [exact A1|]; split; [cbn; lia|]; intros; cbn [w_io set_io]; apply A2).
          exists mine, K, com, d, E, None. split; [exact H0|]. split; [eapply gl_spares; eauto|]. split; [eapply H0; [apply rely_spares; exact HK|exact HC]|].
          split; [now apply gw_spares|]. split; [now left|]. split; [split; reflexivity|]. now apply IH.
        + rewrite A3. cbn [on_io lw]. destruct (HY y w d E (set_io w s') Ey H0 HG HC HA A1 eq_refl A2) as (K' & com' & d' & E' & ev & B1 & B2 & B3 & B4 & B5 & B6).
          exists mine, K', com', d', E', ev. split; [exact B1|]. split; [exact B2|]. split; [exact B3|]. split; [exact B4|]. split; [now left|]. auto.
    Qed.
    Lemma upd_slots (w w' : W) id dt y : seq (slot w') (upd (slot w) id dt y) ->
      slot w' id dt = y /\ forall id' dt', (id', dt') <> (id, dt) -> slot w' id' dt' = slot w id' dt'.
    Proof. intros H. split; [rewrite H; apply upd_same|]. intros id' dt' Hne. rewrite H. now apply upd_other. Qed.
    (** Drawing random bytes. *)
    Lemma spares_draw (w : W) : v_inv v (w_io w) -> spares w (set_draws w (w_draws w + 1)).
    Proof. intros H. split; [exact H|]. split; [cbn; lia|]. reflexivity. Qed.
    Lemma lw_draw n (Q : res bytes -> option bytes -> KT -> outcome -> Prop) mine (K : KT) (com : outcome) :
      (forall w d E, Gl w d E -> K w d E -> Q (draw e (w_draws w) n) mine (fun w' d' E' => K w' d' E' /\ (w_draws w < w_draws w')%nat) com) ->
      lw (get_bytes e n) Q mine K com.
    Proof.
      intros H. unfold get_bytes, act. cbn [lw]. intros w d E H0 HG HC _ HB. cbn [snd fst w_draws set_draws] in *. pose proof (spares_draw w (gl_inv _ _ _ HG)) as HK.
      eexists mine, _, com, d, E, None. split; [apply stable_and; [exact H0|apply (stable_draws mine (w_draws w))]|]. split; [eapply gl_spares; eauto|].
      split; [split; [eapply H0; [apply rely_spares; exact HK|exact HC]|cbn; lia]|]. split; [now apply gw_spares|]. split; [now left|]. split; [split; reflexivity|]. apply (H w d E HG HC).
    Qed.
    Lemma lw_new_v4 (Q : res uuid -> option bytes -> KT -> outcome -> Prop) (K : KT) (com : outcome) :
      (forall w d E b, Gl w d E -> K w d E -> draw e (w_draws w) 16 = Ok b ->
         Q (Ok (uuid_v4 b)) (Some (txt b)) (fun w' d' E' => (K w' d' E' /\ (w_draws w < w_draws w')%nat) /\ vacant (txt b) w' d' E') com) ->
      (forall w d E, Gl w d E -> K w d E -> draw e (w_draws w) 16 = Err ERandom -> Q (Err ERandom) None K com) -> lw (new_v4 e) Q None K com.
    Proof.
      intros H1 H2. unfold new_v4. apply lw_bindR. unfold get_bytes, act. cbn [lw]. intros w d E H0 HG HC _ HB. cbn [snd fst w_draws set_draws] in *.
      pose proof (spares_draw w (gl_inv _ _ _ HG)) as HK. pose proof (gl_n0 _ _ _ HG) as Hn0.
      destruct (draw_cases e (w_draws w) 16) as [(b & Eb & L)|Eb]; rewrite Eb.
      - eexists (Some (txt b)), _, com, d, E, None.
        split; [apply stable_and; [apply stable_and; [apply stable_more, H0|apply (stable_draws _ (w_draws w))]|apply stable_vacant]|]. split; [eapply gl_spares; eauto|].
        destruct (gl_new _ _ _ HG (w_draws w) b ltac:(lia) Eb) as [E1 E2].
        split; [|split; [|split; [|split; [split; reflexivity|]]]].
        + split; [split; [eapply H0; [apply rely_spares; exact HK|exact HC]|cbn; lia]|]. split; [exact E1|]. split; [now apply (gl_no_user w d E)|].
          split; [exact E2|]. split; [now apply (gl_no_group w d E)|]. intros Hin. destruct (gl_ever _ _ _ HG _ Hin) as [_ Hs]. exact (Hs (w_draws w) b ltac:(lia) Eb eq_refl).
        + now apply gw_spares.
        + right. split; [reflexivity|]. split; [cbn; lia|]. eauto.
        + cbn [lw]. apply (H1 w d E b HG HC Eb).
      - exists None, K, com, d, E, None. split; [exact H0|]. split; [eapply gl_spares; eauto|]. split; [eapply H0; [apply rely_spares; exact HK|exact HC]|].
        split; [now apply gw_spares|]. split; [now left|]. split; [split; reflexivity|]. apply (H2 w d E HG HC Eb).
    Qed.
    (** Encrypting, with the positions of the draws. *)
    Lemma lw_aes_enc kek pt aad (Q : res (bytes * bytes) -> option bytes -> KT -> outcome -> Prop) mine (K : KT) (com : outcome) :
      (forall w d E w2 wk ct b1 b2 (K' : KT), Gl w d E -> K w d E -> (w_draws w < w_draws w2)%nat -> draw e (w_draws w) 32 = Ok b1 -> draw e (w_draws w2) 12 = Ok b2 ->
         aes_open kek aad wk ct = Ok pt -> K' = (fun w' d' E' => (K w' d' E' /\ (w_draws w < w_draws w')%nat) /\ (w_draws (w2 : W) < w_draws w')%nat) -> Q (Ok (wk, ct)) mine K' com) ->
      (forall w d E (K' : KT), Gl w d E -> K w d E -> draw e (w_draws w) 32 = Err ERandom -> (forall w d E, K' w d E -> K w d E) -> Q (Err ERandom) mine K' com) ->
      (forall w d E w2 b1 (K' : KT), Gl w d E -> K w d E -> (w_draws w < w_draws w2)%nat -> draw e (w_draws w) 32 = Ok b1 -> draw e (w_draws (w2 : W)) 12 = Err ERandom ->
         (forall w d E, K' w d E -> K w d E) -> Q (Err ERandom) mine K' com) ->
      lw (aes_enc e kek pt aad) Q mine K com.
    Proof.
      intros H1 H2 H3. unfold aes_enc. change EncryptionKeyLength with 32. change (N.of_nat Gcm.nonceLength) with 12. apply lw_bindR, lw_draw. intros w d E HG HC.
      destruct (draw_cases e (w_draws w) 32) as [(key & Ek & Lk)|Ek]; rewrite Ek; [|eapply (H2 w d E); eauto; intros ? ? ? [? _]; assumption].
      apply lw_bindR, lw_draw. intros w2 d2 E2 HG2 [HC2 L2].
      destruct (draw_cases e (w_draws w2) 12) as [(nonce & En & Ln)|En]; rewrite En; [|eapply (H3 w d E w2); eauto; intros ? ? ? [[? _] _]; assumption].
      eapply lw_quiet; [apply qu_seal; [exact Lk|exact Ln]|]. intros r (wk & ct & -> & Ho). eapply (H1 w d E w2); eauto.
    Qed.

    (** ** Reading users and groups *)
    Lemma lw_get_user uid (Q : res user -> option bytes -> KT -> outcome -> Prop) mine (K : KT) (com : outcome) :
      (forall w d E, stable mine K -> Gl w d E -> K w d E -> exists (K' : KT) com' ev, stable mine K' /\ K' w d E /\ acts mine com d com' d ev /\
         match d_users d !! uid with
         | Some a => forall b, slot w uid SU = Some b -> account_ok uid a -> Q (Ok (account_user a)) mine K' com'
         | None => Q (Err EIdUserNotFound) mine K' com'
         end) -> lw (get_user io uc uid) Q mine K com.
    Proof.
      intros H. unfold get_user. apply lw_bindR, lw_map_err, lw_get; [reflexivity|]. intros w d E H0 HG HC.
      destruct (H w d E H0 HG HC) as (K' & com' & ev & B1 & B2 & B3 & B4). exists K', com', ev. split; [exact B1|]. split; [exact B2|]. split; [exact B3|].
      pose proof (gl_user _ _ _ HG uid) as L. destruct (d_users d !! uid) as [a|] eqn:Em; cbn [user_cell] in L; [|rewrite L; exact B4].
      destruct L as (b & Eb & Ho & Ha & _). rewrite Eb. unfold user_open in Ho. destruct (unmarshal dec_sealed_user b) as [su|]; [|discriminate].
      unfold user_unseal. eapply lw_quiet; [apply qu_decrypt_json|]. intros r ->. rewrite Ho. eapply B4; eauto.
    Qed.
    Lemma lw_get_groups (w0 : W) (d0 : directory) (E0 : gset bytes) (Q : res (gmap bytes N) -> option bytes -> KT -> outcome -> Prop) mine (K : KT) (com : outcome) : Gl w0 d0 E0 ->
      (forall w d E, K w d E -> grows w0 d0 E0 w d E) ->
      forall gids acc, (forall g, In g gids -> g ∈ E0 \/ is_Some (d_groups d0 !! g)) -> Q (groups_of d0 gids acc) mine K com -> lw (get_groups io gc gids acc) Q mine K com.
    Proof.
      intros HG0 HK. induction gids as [|g rest IH]; intros acc Hall HQ; cbn [get_groups groups_of] in *; [exact HQ|].
      unfold get_group. apply lw_bindR, lw_bindR, lw_map_err, lw_get; [reflexivity|]. intros w d E H0 HG HC. exists K, com, None.
      split; [exact H0|]. split; [exact HC|]. split; [split; reflexivity|]. destruct (HK _ _ _ HC) as [_ _ Hgr Hev].
      destruct (d_groups d0 !! g) as [s|] eqn:Es.
      - destruct (gl_group _ _ _ HG g s (Hgr _ _ Es)) as (b & Eb & Hr). rewrite Eb. pose proof (group_rec_open _ _ _ Hr) as Ho. unfold group_open in Ho.
        destruct (unmarshal dec_sealed_group b) as [sg|]; [|discriminate]. unfold group_unseal. eapply lw_quiet; [apply qu_decrypt_json|]. intros r ->. rewrite Ho.
        cbn [g_scopes]. apply IH; [|exact HQ]. intros g' Hg'. apply Hall. now right.
      - destruct (Hall g ltac:(now left)) as [Hin|[s Hs]]; [|congruence]. destruct (gl_ever _ _ _ HG g (Hev _ Hin)) as [-> _]. exact HQ.
    Qed.

    (** The call's token is that of a session, if any at all. *)
    Definition genuine (tok : bytes) (K : KT) : Prop :=
      forall w d E, Gl w d E -> K w d E -> accepted k tok -> exists uid exp, says d tok uid exp /\ carries tr0 c uid.
    Definition refused (n : nat) (tok : bytes) : Prop := forall w d E, Gl w d E -> resolves d (clock e n) tok (Err EIdNotAuthenticated).
    Lemma lw_identity tok (Q : res identity -> option bytes -> KT -> outcome -> Prop) mine (K : KT) (com : outcome) : genuine tok K ->
      (forall n, refused n tok -> Q (Err EIdNotAuthenticated) mine K com) ->
      (forall n w d E uid q, stable mine K -> Gl w d E -> K w d E -> carries tr0 c uid -> resolves d (clock e n) tok q -> (forall i, q = Ok i -> i_id i = uid) ->
         exists (K' : KT) com' ev, stable mine K' /\ K' w d E /\ (forall w' d' E', K' w' d' E' -> grows w d E w' d' E') /\ acts mine com d com' d ev /\ Q q mine K' com') ->
      lw (sa_get_identity e io uc gc tc tok) Q mine K com.
    Proof.
      intros Hgen HR HQ. unfold sa_get_identity, any_err. apply lw_bindR, lw_map_err. unfold lift. cbn [lw].
      destruct (token_from_string tok) as [st|x|] eqn:Et.
      2:{ apply (HR 0%nat). intros w d E HG. right. split; [|reflexivity]. intros uid exp (s & _ & (t & _ & C) & _). congruence. }
      2:{ unfold token_from_string in Et. destruct (b64url_decode tok); [|discriminate]. destruct (unmarshal _ _); discriminate. }
      pose proof (from_string_wf _ _ Et) as Hwf.
      apply lw_bindR, lw_map_err. unfold token_unseal. apply lw_bind. eapply lw_quiet; [apply qu_time_now|]. intros now (n & ->).
      pose proof (before_nanos _ _ Hwf (Hc n)) as T.
      destruct (time_before (st_exp st) (clock e n)) eqn:Eb.
      { cbn [lw]. apply (HR n). intros w d E HG. right. split; [|reflexivity]. intros uid exp Hs. destruct (gl_says _ _ _ _ _ _ _ HG Et Hs) as [-> _]. now apply T. }
      assert (NB : (nanos (clock e n) <= nanos (st_exp st))%Z).
      { destruct (Z.le_gt_cases (nanos (clock e n)) (nanos (st_exp st))) as [L|L]; [exact L|]. apply T in L. discriminate. }
      destruct (enc_time (st_exp st)) as [aad|] eqn:Ea.
      2:{ cbn [lw]. apply (HR n). intros w d E HG. right. split; [|reflexivity]. intros uid exp Hs. destruct (gl_says _ _ _ _ _ _ _ HG Et Hs) as [_ (aad & C & _)]. congruence. }
      apply lw_bindR. eapply lw_quiet; [apply qu_decrypt_json|]. intros r ->.
      destruct (open_json (s_tek k) dec_bytes aad (st_wk st) (st_ct st)) as [pt|x|] eqn:Eo.
      2:{ apply (HR n). intros w d E HG. right. split; [|reflexivity]. intros uid exp Hs. destruct (gl_says _ _ _ _ _ _ _ HG Et Hs) as [_ (aad' & C & C')]. congruence. }
      2:{ destruct (open_json_total (s_tek k) dec_bytes aad (st_wk st) (st_ct st)) as [[? C]|(? & C & _)]; congruence. }
      cbn [lw t_pt]. assert (Hacc : accepted k tok).
      { unfold open_json in Eo. destruct (aes_open (s_tek k) (print aad) (slice_bytes (st_wk st)) (slice_bytes (st_ct st))) as [p| |] eqn:Eop; try discriminate. exists st, aad, p. auto. }
      apply lw_bindR, lw_get_user. intros w d E H0 HG HC.
      destruct (Hgen w d E HG HC Hacc) as (uid & exp & Hs & Hcar).
      destruct (gl_says _ _ _ _ _ _ _ HG Et Hs) as [-> (aad' & Ea' & Eo')]. rewrite Ea in Ea'. injection Ea' as <-. rewrite Eo in Eo'. injection Eo' as ->. cbn [slice_bytes].
      destruct (d_users d !! uid) as [a|] eqn:Eu.
      - set (q := match groups_of d (elements (ac_groups a)) ∅ with Ok gm => Ok (mkIdentity uid (ac_scopes a) gm) | Err x => Err x | Panic => Panic end).
        assert (Hq : resolves d (clock e n) tok q).
        { left. exists uid, (st_exp st). split; [exact Hs|]. split; [exact NB|]. rewrite Eu. unfold q.
          destruct (groups_of_spec d (elements (ac_groups a)) ∅) as [(gm & -> & G2 & G3)|(g & G1 & G2 & ->)].
          - left. eexists. split; [|reflexivity]. split; [reflexivity|]. split; [reflexivity|]. split; [intros g Hg; apply G2, elem_of_list_In, elem_of_elements, Hg|].
            intros g s. cbn [i_groups]. rewrite G3, <- elem_of_list_In, elem_of_elements, lookup_empty. split; [intros [?|[_ ?]]; [assumption|discriminate]|auto].
          - right. exists g. split; [apply elem_of_elements, elem_of_list_In, G1|]. auto. }
        destruct (HQ n w d E uid q H0 HG HC Hcar Hq) as (K' & com' & ev & B1 & B2 & B3 & B4 & B5).
        { intros i. unfold q. destruct (groups_of d (elements (ac_groups a)) ∅); try discriminate. intros [= <-]. reflexivity. }
        exists K', com', ev. split; [exact B1|]. split; [exact B2|]. split; [exact B4|]. intros b Ebs Ha. cbn [u_groups u_scopes account_user].
        apply lw_bindR. eapply (lw_get_groups w d E); [exact HG|exact B3| |].
        + intros g Hg. pose proof (gl_user _ _ _ HG uid) as L. rewrite Eu in L. destruct L as (_ & _ & _ & _ & _ & L). apply L, elem_of_elements, elem_of_list_In, Hg.
        + unfold q in B5. destruct (groups_of d (elements (ac_groups a)) ∅); exact B5.
      - destruct (HQ n w d E uid (Err EIdUserNotFound) H0 HG HC Hcar) as (K' & com' & ev & B1 & B2 & B3 & B4 & B5).
        { left. exists uid, (st_exp st). split; [exact Hs|]. split; [exact NB|]. now rewrite Eu. }
        { discriminate. }
        exists K', com', ev. auto.
    Qed.

    (** ** The end of a call *)
    Definition may_act (mine : option bytes) (K : KT) (r : res sa_reply) : Prop :=
      (forall id, ~ gives r id) /\ forall w d E, Gl w d E -> K w d E ->
      exists x d', outside_ok e x /\ sa_step x c d r d' /\ Gl w d' E /\ gives_way mine w d E w d' E.
    Definition post (r : res sa_reply) (mine : option bytes) (K : KT) (com : outcome) : Prop := com = Some r \/ (com = None /\ may_act mine K r).
    Lemma gw_refl mine w d E : gives_way mine w d E w d E.
    Proof. constructor; [apply grows_refl|..]; intros; repeat split; auto. Qed.
    Lemma post_err y mine (K : KT) : (forall w d E, Gl w d E -> K w d E -> exists x, outside_ok e x /\ sa_step x c d (Err y) d) -> post (Err y) mine K None.
    Proof.
      intros H. right. split; [reflexivity|]. split; [intros id [[? C]|C]; discriminate|]. intros w d E HG HC. destruct (H w d E HG HC) as (x & H1 & H2). exists x, d. auto using gw_refl.
    Qed.
    Definition surr (n p0 p1 p2 : nat) : surroundings := mkSurroundings (clock e n) (fun i m => draw e (pos3 p0 p1 p2 i) m) rng_dead (pwhash e).
    Lemma surr_ok n p0 p1 p2 : (p0 < p1)%nat -> (p1 < p2)%nat -> outside_ok e (surr n p0 p1 p2).
    Proof.
      intros H1 H2. split; [exists n; reflexivity|]. split; [exists (pos3 p0 p1 p2); split; [intros; now apply pos3_lt|reflexivity]|]. split; [intros H; exact H|reflexivity].
    Qed.

    (** ** Writing users and groups *)
    Lemma user_cell_mono (d d' : directory) (E E' : gset bytes) uid o a : (forall g s, d_groups d !! g = Some s -> d_groups d' !! g = Some s) -> E ⊆ E' ->
      user_cell d E uid o a -> user_cell d' E' uid o a.
    Proof.
      intros Hg HE. destruct a as [a|]; cbn [user_cell]; [|auto]. intros (b & H1 & H2 & H3 & H4 & H5). exists b. split; [exact H1|]. split; [exact H2|]. split; [exact H3|].
      split; [set_solver|]. intros g Hin. destruct (H5 g Hin) as [H|[s H]]; [left; set_solver|right; eauto].
    Qed.
    Lemma lw_update_user uid a' b0 r (Q : res unit -> option bytes -> KT -> outcome -> Prop) mine (K : KT) : changes tr0 c uid -> account_ok uid a' -> (forall id, gives r id -> mine = Some id) ->
      (forall w d E, Gl w d E -> K w d E -> slot w uid SU = Some b0 /\ exists x gs', outside_ok e x /\
         sa_step x c d r (mkDirectory (<[uid := a']> (d_users d)) gs' (d_sessions d)) /\
         (gs' = d_groups d \/ exists gid s b, mine = Some gid /\ d_groups d !! gid = None /\ gs' = <[gid := s]> (d_groups d) /\ slot w gid SG = Some b /\ group_rec (s_gek k) b s) /\
         (repasses c uid \/ same_pass (d_users d !! uid) (Some a')) /\ (forall g, g ∈ ac_groups a' -> g ∈ E \/ is_Some (gs' !! g))) ->
      Q (Ok tt) mine KTrue (Some r) -> (rng_dead -> Q (Err ERandom) mine K None) ->
      lw (put_user io uc uid (account_user a') true) Q mine K None.
    Proof.
      intros Hch Ha Hgv HC HQ HE. unfold put_user. apply lw_bindR. eapply lw_quiet; [apply qu_user_seal; exact Ha|]. intros q [(su & -> & Eu & Ho)|[-> HR]]; [|auto].
      rewrite Eu. set (b := print (enc_sealed_user su)) in *. apply lw_map_err.
      destruct (cell_update v io Hio uid SU b ltac:(reflexivity) (enc_sealed_user_nonempty _)) as [_ Hw].
      eapply lw_write; [apply (Hw b0)| |discriminate|].
      { intros w d E HG HK. now destruct (HC w d E HG HK). }
      intros y w d E w' Ey H0 HG HK Hcalm Hi HD HS. injection Ey as <-. destruct (upd_slots _ _ _ _ _ HS) as [S1 S2]. pose proof su_sg as NSG.
      destruct (HC w d E HG HK) as (Hb & x & gs' & Hx & Hs & Hgs & Hp & Hall).
      set (d' := mkDirectory (<[uid := a']> (d_users d)) gs' (d_sessions d)) in *.
      assert (Hgrow : forall g s, d_groups d !! g = Some s -> gs' !! g = Some s).
      { intros g s Hg. destruct Hgs as [->|(gid & s' & b' & _ & Hn & -> & _)]; [exact Hg|]. rewrite lookup_insert_ne; [exact Hg|congruence]. }
      assert (Hin : uid ∈ E).
      { pose proof (gl_user _ _ _ HG uid) as C. rewrite Hb in C. destruct (d_users d !! uid); [|discriminate]. destruct C as (_ & _ & _ & _ & C & _). exact C. }
      exists KTrue, (Some r), d', E, (Some (mkSaEvent x c r)). split; [apply stable_true|]. split; [|split; [exact Logic.I|split; [|split; [|exact HQ]]]].
      - constructor; [exact Hi|rewrite HD; apply (gl_n0 _ _ _ HG)|..].
        + intros u. cbn [d_users d']. destruct (decide (u = uid)) as [->|Hne].
          * rewrite lookup_insert, S1. exists b. split; [reflexivity|]. split; [exact Ho|]. split; [exact Ha|]. split; [exact Hin|exact Hall].
          * rewrite lookup_insert_ne by auto. rewrite S2 by congruence. eapply user_cell_mono; [exact Hgrow|reflexivity|apply (gl_user _ _ _ HG)].
        + intros g s Hg. rewrite S2 by congruence. destruct Hgs as [->|(gid & s' & b' & _ & Hn & -> & Hsl & Hr)]; [now apply (gl_group _ _ _ HG)|].
          cbn [d_groups d'] in Hg. destruct (decide (g = gid)) as [->|Hne]; [rewrite lookup_insert in Hg; injection Hg as <-; eauto|].
          rewrite lookup_insert_ne in Hg by auto. now apply (gl_group _ _ _ HG).
        + intros g Hg. rewrite S2 by congruence. destruct (gl_ever _ _ _ HG g Hg). split; [assumption|]. eapply settled_mono; [|eassumption]. lia.
        + intros i b' Hib Hb'. rewrite HD in Hib. destruct (gl_new _ _ _ HG i b' Hib Hb') as [N1 N2]. rewrite S2 by congruence. rewrite S2 by congruence. auto.
        + apply (gl_sess _ _ _ HG).
      - constructor.
        + constructor; [lia|apply incl_refl|exact Hgrow|reflexivity].
        + intros u Hu Hm. rewrite S2 by congruence. cbn [d_users d']. rewrite lookup_insert_ne by congruence. auto.
        + intros u Hu Hm. cbn [d_users d']. destruct (decide (u = uid)) as [->|Hne]; [rewrite lookup_insert; destruct Hp; [contradiction|assumption]|]. now rewrite lookup_insert_ne by auto.
        + intros g Hm. rewrite S2 by congruence. split; [reflexivity|]. split; [|reflexivity]. cbn [d_groups d'].
          destruct Hgs as [->|(gid & s' & b' & E1 & Hn & -> & _)]; [reflexivity|]. rewrite lookup_insert_ne; [reflexivity|congruence].
      - split; [reflexivity|]. split; [reflexivity|]. split; [reflexivity|]. split; [exact Hx|]. split; [exact Hs|exact Hgv].
    Qed.
    Lemma lw_create_user uid a' r (Q : res unit -> option bytes -> KT -> outcome -> Prop) (K : KT) : account_ok uid a' -> ac_groups a' = ∅ -> (forall id, gives r id -> id = uid) ->
      (forall w d E, Gl w d E -> K w d E -> vacant uid w d E /\ exists x, outside_ok e x /\ sa_step x c d r (set_users d (<[uid := a']> (d_users d)))) ->
      Q (Ok tt) (Some uid) KTrue (Some r) -> (rng_dead -> Q (Err ERandom) (Some uid) K None) ->
      lw (put_user io uc uid (account_user a') false) Q (Some uid) K None.
    Proof.
      intros Ha Hng Hgv HC HQ HE. unfold put_user. apply lw_bindR. eapply lw_quiet; [apply qu_user_seal; exact Ha|]. intros q [(su & -> & Eu & Ho)|[-> HR]]; [|auto].
      rewrite Eu. set (b := print (enc_sealed_user su)) in *. apply lw_map_err.
      destruct (cell_put v io Hio uid SU b ltac:(reflexivity) (enc_sealed_user_nonempty _)) as [Hw _].
      eapply lw_write; [apply Hw| |discriminate|].
      { intros w d E HG HK. destruct (HC w d E HG HK) as [(H & _) _]. exact H. }
      intros y w d E w' Ey H0 HG HK Hcalm Hi HD HS. injection Ey as <-. destruct (upd_slots _ _ _ _ _ HS) as [S1 S2]. pose proof su_sg as NSG.
      destruct (HC w d E HG HK) as ((V1 & V2 & V3 & V4 & V5) & x & Hx & Hs). pose proof (proj2 Hcalm uid eq_refl) as Hset.
      set (d' := set_users d (<[uid := a']> (d_users d))) in *.
      exists KTrue, (Some r), d', (E ∪ {[uid]}), (Some (mkSaEvent x c r)). split; [apply stable_true|]. split; [|split; [exact Logic.I|split; [|split; [|exact HQ]]]].
      - constructor; [exact Hi|rewrite HD; apply (gl_n0 _ _ _ HG)|..].
        + intros u. cbn [d_users d' set_users]. destruct (decide (u = uid)) as [->|Hne].
          * rewrite lookup_insert, S1. exists b. split; [reflexivity|]. split; [exact Ho|]. split; [exact Ha|]. split; [set_solver|]. rewrite Hng. set_solver.
          * rewrite lookup_insert_ne by auto. rewrite S2 by congruence. eapply user_cell_mono; [| |apply (gl_user _ _ _ HG)]; [auto|set_solver].
        + intros g s Hg. rewrite S2 by congruence. now apply (gl_group _ _ _ HG).
        + intros g Hg. rewrite S2 by congruence. apply elem_of_union in Hg as [Hg|Hg].
          * destruct (gl_ever _ _ _ HG g Hg). split; [assumption|]. eapply settled_mono; [|eassumption]. lia.
          * apply elem_of_singleton in Hg as ->. split; [exact V3|]. eapply settled_mono; [|eassumption]. lia.
        + intros i b' Hib Hb'. rewrite HD in Hib. destruct (gl_new _ _ _ HG i b' Hib Hb') as [N1 N2].
          assert (txt b' <> uid) by (apply (Hset i b' Hib Hb')). rewrite !S2 by congruence. auto.
        + apply (gl_sess _ _ _ HG).
      - constructor.
        + constructor; [lia|apply incl_refl|auto|set_solver].
        + intros u Hu Hm. rewrite S2 by congruence. cbn [d_users d' set_users]. rewrite lookup_insert_ne by congruence. auto.
        + intros u Hu Hm. cbn [d_users d' set_users]. now rewrite lookup_insert_ne by congruence.
        + intros g Hm. rewrite S2 by congruence. split; [reflexivity|]. split; [reflexivity|]. rewrite elem_of_union, elem_of_singleton. split; [intros [?| ->]; [assumption|congruence]|auto].
      - split; [reflexivity|]. split; [reflexivity|]. split; [reflexivity|]. split; [exact Hx|]. split; [exact Hs|]. intros id Hid. f_equal. symmetry. now apply Hgv.
    Qed.
    Definition written (gid : bytes) (s : N) : KT := fun w d E => d_groups d !! gid = None /\ exists b, slot w gid SG = Some b /\ group_rec (s_gek k) b s.
    Lemma stable_written gid s : stable (Some gid) (written gid s).
    Proof. intros w d E w' d' E' [_ _ _ H] [A B]. destruct (H gid eq_refl) as (E1 & E2 & _). unfold written. rewrite E1, E2. auto. Qed.
    Lemma lw_put_group gid s (Q : res unit -> option bytes -> KT -> outcome -> Prop) (K1 : KT) : valid_utf8 gid = true -> s < 2 ^ 64 -> stable None K1 ->
      (forall w d E w2 b1 b2, Gl w d E -> K1 w d E -> (w_draws w < w_draws (w2 : W))%nat -> draw e (w_draws w) 32 = Ok b1 -> draw e (w_draws w2) 12 = Ok b2 ->
         Q (Ok tt) (Some gid) (fun w' d' E' => K1 w' d' E' /\ written gid s w' d' E') None) ->
      (forall w d E (K' : KT), Gl w d E -> K1 w d E -> (forall w d E, K' w d E -> K1 w d E) -> draw e (w_draws w) 32 = Err ERandom -> Q (Err ERandom) (Some gid) K' None) ->
      (forall w d E w2 b1 (K' : KT), Gl w d E -> K1 w d E -> (forall w d E, K' w d E -> K1 w d E) -> (w_draws w < w_draws (w2 : W))%nat -> draw e (w_draws w) 32 = Ok b1 -> draw e (w_draws w2) 12 = Err ERandom ->
         Q (Err ERandom) (Some gid) K' None) ->
      lw (put_group io gc gid (mkGroup s)) Q (Some gid) (fun w d E => K1 w d E /\ vacant gid w d E) None.
    Proof.
      intros V1 Vs HK1 H1 H2 H3. unfold put_group, group_seal. apply lw_bindR, lw_bindR. unfold encrypt_json. cbn [c_enc aes_cryptor]. apply lw_aes_enc.
      2:{ intros w d E K' HG [HK _] Hd HK'. apply (H2 w d E K'); auto. intros w' d' E' H'. now destruct (HK' _ _ _ H'). }
      2:{ intros w d E w2 b1 K' HG [HK _] Hlt Hb1 Hd HK'. apply (H3 w d E w2 b1 K'); auto. intros w' d' E' H'. now destruct (HK' _ _ _ H'). }
      intros wa da Ea w2 wk ct b1 b2 K' HGa [HKa _] Hlt Hb1 Hb2 Ho ->. cbn [lw sg_gid]. set (b := print (enc_sealed_group _)).
      assert (Hb : group_rec (s_gek k) b s).
      { unfold group_rec, b. rewrite sealed_group_roundtrip. cbn [sg_gid sg_ct sg_wk]. rewrite sanitize_valid by exact V1. eauto 10. }
      apply lw_map_err. destruct (cell_put v io Hio gid SG b ltac:(reflexivity) (enc_sealed_group_nonempty _)) as [Hw _].
      eapply lw_write; [apply Hw| |discriminate|].
      { intros w d E HG (((_ & _ & _ & H & _) & _) & _). exact H. }
      intros y w d E w' Ey H0 HG (((HK & V2 & V3 & V4 & V5 & V6) & _) & _) Hcalm Hi HD HS. injection Ey as <-. destruct (upd_slots _ _ _ _ _ HS) as [S1 S2]. pose proof su_sg as NSG.
      pose proof (proj2 Hcalm gid eq_refl) as Hset.
      eexists (fun w' d' E' => K1 w' d' E' /\ written gid s w' d' E'), None, d, E, None. split; [apply stable_and; [now apply stable_more|apply stable_written]|].
      split; [|split; [|split; [|split; [split; reflexivity|]]]].
      - constructor; [exact Hi|rewrite HD; apply (gl_n0 _ _ _ HG)|..].
        + intros u. rewrite S2 by congruence. apply (gl_user _ _ _ HG).
        + intros g s' Hg. destruct (decide (g = gid)) as [->|Hne]; [congruence|]. rewrite S2 by congruence. now apply (gl_group _ _ _ HG).
        + intros g Hg. destruct (decide (g = gid)) as [->|Hne]; [contradiction|]. rewrite S2 by congruence. destruct (gl_ever _ _ _ HG g Hg). split; [assumption|]. eapply settled_mono; [|eassumption]. lia.
        + intros i b' Hib Hb'. rewrite HD in Hib. destruct (gl_new _ _ _ HG i b' Hib Hb') as [N1 N2].
          assert (txt b' <> gid) by (apply (Hset i b' Hib Hb')). rewrite !S2 by congruence. auto.
        + apply (gl_sess _ _ _ HG).
      - split; [|split; [exact V5|exists b; auto]]. eapply HK1; [|exact HK]. constructor; [constructor; [lia|apply incl_refl|auto|reflexivity]|..].
        + intros u _. rewrite S2 by congruence. auto.
        + intros u _. reflexivity.
        + discriminate.
      - constructor; [constructor; [lia|apply incl_refl|auto|reflexivity]|..].
        + intros u _ _. rewrite S2 by congruence. auto.
        + intros u _ _. reflexivity.
        + intros g Hg. rewrite S2 by congruence. auto.
      - apply (H1 wa da Ea w2 b1 b2); auto.
    Qed.

    (** ** Calls made with a token *)
    Definition initial : KT := fun _ d _ => forall tok, sa_token c = Some tok -> accepted k tok -> exists uid exp, says d tok uid exp /\ carries tr0 c uid.
    Lemma stable_initial mine : stable mine initial.
    Proof.
      intros w d E w' d' E' [[_ H _ _] _ _ _] A tok Ht Hacc. destruct (A tok Ht Hacc) as (uid & exp & (s & S1 & S2) & Hcar). exists uid, exp. split; [|exact Hcar]. exists s. auto.
    Qed.
    Definition frozen (o : bytes -> option bytes) (m : bytes -> option account) : KT :=
      fun w d _ => forall u, changes tr0 c u \/ acts_for tr0 c u -> slot w u SU = o u /\ d_users d !! u = m u.
    Lemma stable_frozen mine o m : stable mine (frozen o m).
    Proof. intros w d E w' d' E' [_ H _ _] A u Hu. destruct (H u ltac:(tauto)) as [-> ->]. now apply A. Qed.
    Lemma stable_resolves mine now tok i o m : acts_for tr0 c (i_id i) -> stable mine (fun w d E => resolves d now tok (Ok i) /\ frozen o m w d E).
    Proof.
      intros Ha w d E w' d' E' HR [A B]. split; [|eapply stable_frozen; eauto]. destruct HR as [[_ H1 H2 _] H3 _ _].
      eapply resolves_grow; eauto. apply (H3 (i_id i)). auto.
    Qed.
    Lemma lw_caller {B} (h : B -> sa_reply) tok (kont : identity -> prog W (res B)) : sa_token c = Some tok ->
      (forall x d y, resolves d (x_now x) tok (Err y) -> sa_step x c d (Err y) d) -> (forall uid, carries tr0 c uid -> acts_for tr0 c uid) ->
      (forall n i o m (K : KT), acts_for tr0 c (i_id i) -> stable None K ->
         (forall w d E, K w d E -> resolves d (clock e n) tok (Ok i) /\ frozen o m w d E) -> lw (kont i) (fun r => post (res_map h r)) None K None) ->
      lw (bindR (sa_get_identity e io uc gc tc tok) kont) (fun r => post (res_map h r)) None initial None.
    Proof.
      intros Ht Herr Hac HK. apply lw_bindR, lw_identity.
      - intros w d E HG HI Hacc. exact (HI tok Ht Hacc).
      - intros n Hr. cbn [res_map]. apply post_err. intros w d E HG _. exists (surr n 0 1 2). split; [apply surr_ok; lia|]. apply Herr. exact (Hr w d E HG).
      - intros n w d E uid q H0 HG HI Hcar Hres Hid. destruct q as [i|y|].
        + assert (Hai : acts_for tr0 c (i_id i)) by (rewrite (Hid i eq_refl); auto).
          set (K := fun w' d' E' => grows w d E w' d' E' /\ (resolves d' (clock e n) tok (Ok i) /\ frozen (fun u => slot w u SU) (fun u => d_users d !! u) w' d' E')).
          assert (SK : stable None K) by (apply stable_and; [apply stable_grown|now apply stable_resolves]).
          exists K, None, None. split; [exact SK|]. split; [|split; [intros w' d' E' [? _]; assumption|split; [split; reflexivity|]]].
          * split; [apply grows_refl|]. split; [exact Hres|]. intros u _. auto.
          * eapply (HK n i _ _ K); [exact Hai|exact SK|]. intros w' d' E' [_ H']. exact H'.
        + exists (fun w' d' E' => grows w d E w' d' E'), (Some (Err y)), (Some (mkSaEvent (surr n 0 1 2) c (Err y))). split; [apply stable_grown|]. split; [apply grows_refl|]. split; [auto|].
          split; [|now left]. split; [reflexivity|]. split; [reflexivity|]. split; [reflexivity|]. split; [apply surr_ok; lia|]. split; [apply Herr; exact Hres|].
          intros id [[? C]|C]; discriminate.
        + exfalso. destruct Hres as [(u & exp & _ & _ & C)|[_ C]]; [|discriminate]. destruct (d_users d !! u); [|discriminate]. destruct C as [(? & _ & C)|(? & _ & _ & C)]; discriminate.
    Qed.

    (** ** The calls *)
    Definition scopes_ok : Prop := match c with SNewUser l | SNewGroup _ l => Forall (fun s => s < 2 ^ 64) l | _ => True end.
    Lemma same_pass_knows x a o pw : same_pass (Some a) o -> exists a', o = Some a' /\ (knows x a' pw <-> knows x a pw).
    Proof. intros H. destruct o as [a'|]; [|discriminate]. exists a'. split; [reflexivity|]. unfold same_pass in H. cbn in H. injection H as H1 H2. unfold knows. rewrite H1, H2. reflexivity. Qed.

    Lemma lw_new_user scopes : c = SNewUser scopes -> scopes_ok -> lw (sa_aes e io k c) post None initial None.
    Proof.
      intros Ec Hwf. unfold scopes_ok in Hwf. rewrite Ec in Hwf. rewrite Ec. unfold sa_aes. cbn [sa_do]. apply lw_ret_map. unfold sa_new_user.
      assert (RND : forall mine K, rng_dead -> post (Err ERandom) mine K None).
      { intros mine K HR. apply post_err. intros w d E _ _. exists (surr 0 0 1 2). split; [apply surr_ok; lia|]. rewrite Ec. left. auto. }
      apply lw_bindR, lw_new_v4; [|intros w d E _ _ Hd; apply RND; eexists _, _; exact Hd].
      intros w d E b HG _ Hb. unfold new_user, generate_password. apply lw_bindR, lw_bindR, lw_bindR, lw_draw. intros w1 d1 E1 HG1 [[_ L1] V1].
      change passwordLength with 32. destruct (draw_cases e (w_draws w1) 32) as [(raw & Er & Lr)|Er]; rewrite Er; [|apply RND; eexists _, _; exact Er].
      apply lw_bindR, lw_draw. intros w2 d2 E2 HG2 [_ L2].
      change (N.of_nat saltLength) with 8. destruct (draw_cases e (w_draws w2) 8) as [(salt & Es & Ls)|Es]; rewrite Es; [|apply RND; eexists _, _; exact Es].
      cbn [lw]. apply lw_bindR. set (pw := b64url_encode raw). set (a := mkAccount (scope_union scopes) salt (pwhash e pw salt) ∅).
      change (mkUser _ _ _) with (account_user a).
      apply (lw_create_user (txt b) a (Ok (SRUser (txt b) pw))); [|reflexivity| | | |].
      - split; [apply uuid_text_valid|]. split; [apply union_lt, Hwf|]. split; [exact Ls|]. intros g Hg. cbn in Hg. set_solver.
      - intros id [[p C]|C]; [congruence|discriminate].
      - intros w3 d3 E3 HG3 (((_ & V3) & _) & _). split; [exact V3|]. exists (surr 0 (w_draws w) (w_draws w1) (w_draws w2)). split; [now apply surr_ok|]. rewrite Ec. right.
        exists b, raw, salt, (scope_union scopes). cbn [x_draw surr pos3]. rewrite Nat.add_0_r. split; [exact Hb|]. split; [exact Er|]. split; [exact Es|]. split; [apply union_all_of|]. cbn zeta.
        destruct V3 as (_ & -> & _). split; reflexivity.
      - cbn [lw]. now left.
      - intros HR. now apply RND.
    Qed.

    Lemma lw_login uid pw : c = SLogin uid pw -> lw (sa_aes e io k c) post None initial None.
    Proof.
      intros Ec. rewrite Ec. unfold sa_aes. cbn [sa_do]. apply lw_ret_map. unfold sa_login, any_err. apply lw_map_err, lw_bindR, lw_get_user.
      intros w d E _ HG _. set (K := (fun _ d' _ => same_pass (d_users d !! uid) (d_users d' !! uid)) : KT).
      assert (SK : stable None K).
      { intros w1 d1 E1 w2 d2 E2 [_ _ H _] A. unfold K, same_pass in *. rewrite (H uid); [exact A|]. rewrite Ec. reflexivity. }
      exists K, None, None. split; [exact SK|]. split; [reflexivity|]. split; [split; reflexivity|].
      destruct (d_users d !! uid) as [a|] eqn:Eu.
      2:{ cbn [res_map]. apply post_err. intros w1 d1 E1 _ HK. exists (surr 0 0 1 2). split; [apply surr_ok; lia|]. rewrite Ec. cbn [sa_step].
          unfold K, same_pass in HK. destruct (d_users d1 !! uid); [discriminate|auto]. }
      intros b Hb Ha. apply lw_bindR. cbn [lw lift].
      assert (KN : forall w1 d1 E1 x, K w1 d1 E1 -> exists a', d_users d1 !! uid = Some a' /\ (knows x a' pw <-> knows x a pw)).
      { intros w1 d1 E1 x HK. apply (same_pass_knows x a). exact HK. }
      destruct (authenticate_spec e a uid pw Ha) as [[Kn ->]|[Kn ->]].
      2:{ cbn [res_map]. apply post_err. intros w1 d1 E1 _ HK. exists (surr 0 0 1 2). split; [apply surr_ok; lia|]. rewrite Ec. cbn [sa_step].
          destruct (KN w1 d1 E1 (surr 0 0 1 2) HK) as (a' & -> & Hk). left. split; [|auto]. rewrite Hk. exact Kn. }
      unfold new_token. apply lw_bind, lw_bind. eapply lw_quiet; [apply qu_time_now|]. intros now (n & ->). cbn [lw]. unfold TokenValidity. set (exp := time_add (clock e n) 3600).
      apply lw_bindR. unfold token_seal. cbn [t_exp t_pt].
      destruct (enc_time exp) as [aad|] eqn:Ea.
      2:{ cbn [lw res_map]. apply post_err. intros w1 d1 E1 _ HK. exists (surr n 0 1 2). split; [apply surr_ok; lia|]. rewrite Ec. cbn [sa_step].
          destruct (KN w1 d1 E1 (surr n 0 1 2) HK) as (a' & -> & Hk). right. split; [apply Hk; exact Kn|]. left. split; [|auto].
          right. cbn [x_now surr]. fold exp. unfold enc_time in Ea. destruct (time_text exp); [discriminate|reflexivity]. }
      apply lw_bindR. unfold encrypt_json. cbn [c_enc aes_cryptor]. eapply lw_quiet; [apply qu_aes_enc|].
      intros r [(wk & ct & -> & Ho)|[-> HR]].
      2:{ cbn [res_map]. apply post_err. intros w1 d1 E1 _ HK. exists (surr n 0 1 2). split; [apply surr_ok; lia|]. rewrite Ec. cbn [sa_step].
          destruct (KN w1 d1 E1 (surr n 0 1 2) HK) as (a' & -> & Hk). right. split; [apply Hk; exact Kn|]. left. auto. }
      cbn [lw]. apply lw_bindR. unfold lift. cbn [lw].
      assert (Wexp : time_wf exp) by (apply time_add_wf, Hc).
      destruct (token_string (mkSealedToken exp (Some ct) (Some wk))) as [s| |] eqn:Es.
      2-3: unfold token_string, enc_sealed_token in Es; cbn [st_exp st_ct st_wk] in Es; rewrite Ea in Es; discriminate.
      cbn [res_map]. right. split; [reflexivity|]. split; [intros id [[? C]|C]; discriminate|]. intros w1 d1 E1 HG1 HK.
      assert (Ef : token_from_string s = Ok (mkSealedToken exp (Some ct) (Some wk))) by (apply token_string_lossless; [exact Wexp|exact Es]).
      assert (SO : token_ok (mkSession s uid exp)).
      { exists wk, ct, aad. cbn [se_token se_exp se_uid]. auto. }
      set (d' := add_session d1 (mkSession s uid exp)).
      assert (SS : forall s', In s' (d_sessions d') -> token_ok s').
      { intros s' [<-|Hi]; [exact SO|]. now apply (gl_sess _ _ _ HG1). }
      exists (surr n 0 1 2), d'. split; [apply surr_ok; lia|]. split; [|split].
      - rewrite Ec. cbn [sa_step]. destruct (KN w1 d1 E1 (surr n 0 1 2) HK) as (a' & -> & Hk). right. split; [apply Hk; exact Kn|]. right. exists s.
        split; [cbn [x_now surr]; fold exp; unfold enc_time in Ea; destruct (time_text exp); discriminate|]. split; [reflexivity|]. split; [reflexivity|].
        intros uid' exp'. split.
        2:{ intros [-> ->]. exists (mkSession s uid exp). split; [now left|]. split; [|auto]. exists (mkSealedToken exp (Some ct) (Some wk)). auto. }
        intros (s' & Hi & (t & T2 & T3) & <- & <-). destruct (SS s' Hi) as (wk' & ct' & aad' & E' & _ & Ea' & Ho').
        rewrite Ef in T3. injection T3 as <-. rewrite E' in T2. injection T2 as Q1 Q2 Q3.
        rewrite Q1, Ea in Ea'. injection Ea' as <-. rewrite Q2, Q3, Ho in Ho'. split; [|exact Q1].
        assert (Hp : forall a b : bytes, Ok a = Ok b -> a = b) by congruence. apply Hp, print_jbytes_inj in Ho'. congruence.
      - destruct HG1 as [G1 G2 G3 G4 G5 G6 G7]. constructor; assumption.
      - constructor; [constructor; [lia|intros x Hx; now right|auto|reflexivity]|..]; intros; repeat split; auto.
    Qed.

    Lemma lw_change uid old : c = SChangePassword uid old -> lw (sa_aes e io k c) post None initial None.
    Proof.
      intros Ec. assert (Hch : changes tr0 c uid) by (rewrite Ec; reflexivity). rewrite Ec. unfold sa_aes. cbn [sa_do]. apply lw_ret_map. unfold sa_change_password, any_err.
      apply lw_bindR, lw_map_err, lw_get_user.
      intros w d E _ HG _. set (K := (fun w' d' _ => slot w' uid SU = slot w uid SU /\ d_users d' !! uid = d_users d !! uid) : KT).
      assert (SK : stable None K) by (apply stable_user; auto).
      exists K, None, None. split; [exact SK|]. split; [split; reflexivity|]. split; [split; reflexivity|].
      destruct (d_users d !! uid) as [a|] eqn:Eu.
      2:{ cbn [res_map]. apply post_err. intros w1 d1 E1 _ [_ HK]. exists (surr 0 0 1 2). split; [apply surr_ok; lia|]. rewrite Ec. cbn [sa_step]. rewrite HK. auto. }
      intros b Hb Ha. apply lw_bindR, lw_map_err. unfold change_password, lift. apply lw_bindR. cbn [lw].
      destruct (authenticate_spec e a uid old Ha) as [[Kn ->]|[Kn ->]].
      2:{ cbn [res_map]. apply post_err. intros w1 d1 E1 _ [_ HK]. exists (surr 0 0 1 2). split; [apply surr_ok; lia|]. rewrite Ec. cbn [sa_step]. rewrite HK. left. auto. }
      assert (RND : forall y (K' : KT), rng_dead -> (forall w d E, K' w d E -> K w d E) -> y = EIdNotAuthenticated \/ y = ERandom -> post (Err y) None K' None).
      { intros y K' HR HK' Hy. apply post_err. intros w1 d1 E1 _ H1. destruct (HK' _ _ _ H1) as [_ HK]. exists (surr 0 0 1 2). split; [apply surr_ok; lia|]. rewrite Ec. cbn [sa_step]. rewrite HK.
        right. split; [exact Kn|]. left. split; [exact HR|]. destruct Hy as [-> | ->]; auto. }
      unfold generate_password. apply lw_bindR, lw_bindR, lw_draw. intros w1 d1 E1 HG1 _.
      change passwordLength with 32. destruct (draw_cases e (w_draws w1) 32) as [(raw & Er & Lr)|Er]; rewrite Er.
      2:{ cbn [res_map]. apply RND; [eexists _, _; exact Er|tauto|auto]. }
      apply lw_bindR, lw_draw. intros w2 d2 E2 HG2 [_ L2].
      change (N.of_nat saltLength) with 8. destruct (draw_cases e (w_draws w2) 8) as [(salt & Es & Ls)|Es]; rewrite Es.
      2:{ cbn [res_map]. apply RND; [eexists _, _; exact Es|tauto|auto]. }
      cbn [lw]. apply lw_bindR. set (pw := b64url_encode raw). cbn [u_scopes u_groups account_user].
      set (a' := mkAccount (ac_scopes a) salt (pwhash e pw salt) (ac_groups a)). change (mkUser _ _ _) with (account_user a').
      eapply (lw_update_user uid a' b (Ok (SRPassword pw))); [exact Hch| | | | |].
      - destruct Ha as (V1 & V2 & V3 & V4). split; [exact V1|]. split; [exact V2|]. split; [exact Ls|exact V4].
      - intros id [[p C]|C]; discriminate.
      - intros w3 d3 E3 HG3 [[[K1 K2] _] _]. split; [congruence|]. exists (surr 0 (w_draws w1) (w_draws w2) (w_draws w2 + 1)), (d_groups d3). split; [apply surr_ok; lia|].
        split; [|split; [now left|split; [left; rewrite Ec; reflexivity|]]].
        + rewrite Ec. cbn [sa_step]. rewrite K2. right. split; [exact Kn|]. right. exists raw, salt. cbn [x_draw surr pos3]. auto.
        + pose proof (gl_user _ _ _ HG3 uid) as C. rewrite K2 in C. destruct C as (_ & _ & _ & _ & _ & C). exact C.
      - cbn [lw]. now left.
      - intros HR. cbn [res_map]. apply RND; [exact HR|tauto|auto].
    Qed.

    (** The second half of AddUserToGroups and RemoveUserFromGroups. *)
    Lemma lw_membership (tok uid : bytes) (gids : list bytes) (f : gset bytes -> gset bytes) (g : option (gset bytes) -> res (option (gset bytes))) :
      (forall x d r d', sa_step x c d r d' <-> change_membership x tok uid gids f d r d') -> sa_token c = Some tok -> changes tr0 c uid -> (forall u, carries tr0 c u -> acts_for tr0 c u) ->
      (forall s, g (Some s) = Ok (Some (f s))) -> (forall s x, x ∈ f s -> x ∈ s \/ In x gids) ->
      lw (ret_map (fun _ => SRUnit)
        (bindR (sa_get_identity e io uc gc tc tok) (fun i =>
          if negb (member_of_all i gids) then Ret (Err EIdNotAuthorized)
          else bindR (get_user io uc uid) (fun u => bindR (lift (g (u_groups u))) (fun gs => put_user io uc uid (mkUser (u_hash u) (u_scopes u) gs) true)))))
        post None initial None.
    Proof.
      intros Hstep Ht Hch Hac Hg Hf. apply lw_ret_map, lw_caller; [exact Ht| |exact Hac|].
      { intros x d y Hr. apply Hstep. right. exists y. auto. }
      intros n i o m K Hai SK HK. destruct (member_of_all i gids) eqn:Em; cbn [negb].
      2:{ cbn [lw res_map]. apply post_err. intros w d E _ H1. destruct (HK _ _ _ H1) as [Hr _]. exists (surr n 0 1 2). split; [apply surr_ok; lia|]. apply Hstep. left. exists i. split; [exact Hr|]. left.
          split; [|auto]. intros C. apply member_all in C. congruence. }
      apply member_all in Em. apply lw_bindR, lw_get_user. intros w d E _ HG H1. exists K, None, None. split; [exact SK|]. split; [exact H1|]. split; [split; reflexivity|].
      destruct (HK _ _ _ H1) as [Hr Hfr]. destruct (Hfr uid ltac:(auto)) as [Ho Hm].
      assert (HM : forall w' d' E', K w' d' E' -> slot w' uid SU = slot w uid SU /\ d_users d' !! uid = d_users d !! uid).
      { intros w' d' E' H'. destruct (HK _ _ _ H') as [_ Hfr']. destruct (Hfr' uid ltac:(auto)) as [Ho' Hm']. split; congruence. }
      destruct (d_users d !! uid) as [a|] eqn:Eu.
      2:{ cbn [res_map]. apply post_err. intros w1 d1 E1 _ H2. destruct (HK _ _ _ H2) as [Hr2 _]. destruct (HM _ _ _ H2) as [_ Em2]. exists (surr n 0 1 2). split; [apply surr_ok; lia|]. apply Hstep.
          left. exists i. split; [exact Hr2|]. right. split; [exact Em|]. rewrite Em2. auto. }
      intros b Hb Ha. cbn [u_groups u_hash u_scopes account_user]. rewrite Hg. apply lw_bindR. unfold lift. cbn [lw].
      set (a' := mkAccount (ac_scopes a) (ac_salt a) (ac_hash a) (f (ac_groups a))). change (mkUser _ _ _) with (account_user a').
      assert (VG : forall g, In g gids -> valid_utf8 g = true).
      { intros x Hx. destruct (caller_user _ _ _ _ Hr) as (ai & Ea & _ & _ & _ & D). pose proof (gl_user _ _ _ HG (i_id i)) as C. rewrite Ea in C. destruct C as (_ & _ & _ & (V1 & _ & _ & V4) & _).
        destruct (Em x Hx) as [-> |[s Es]]; [exact V1|]. apply D in Es as [Es _]. auto. }
      eapply (lw_update_user uid a' b (Ok SRUnit)); [exact Hch| | | | |].
      - destruct Ha as (V1 & V2 & V3 & V4). split; [exact V1|]. split; [exact V2|]. split; [exact V3|]. intros x Hx. destruct (Hf _ _ Hx); auto.
      - intros id [[p C]|C]; discriminate.
      - intros w3 d3 E3 HG3 H3. destruct (HK _ _ _ H3) as [Hr3 _]. destruct (HM _ _ _ H3) as [K1 K2]. split; [congruence|]. exists (surr n 0 1 2), (d_groups d3). split; [apply surr_ok; lia|].
        split; [|split; [now left|split; [right; now rewrite K2|]]].
        + apply Hstep. left. exists i. split; [exact Hr3|]. right. split; [exact Em|]. rewrite K2. right. auto.
        + intros x Hx. pose proof (gl_user _ _ _ HG3 uid) as C. rewrite K2 in C. destruct C as (_ & _ & _ & _ & _ & C). destruct (Hf _ _ Hx) as [Hx'|Hx']; [now apply C|].
          destruct (caller_user _ _ _ _ Hr3) as (ai & Ea & _ & _ & _ & D). destruct (Em x Hx') as [-> |[s Es]].
          * left. pose proof (gl_user _ _ _ HG3 (i_id i)) as C'. rewrite Ea in C'. destruct C' as (_ & _ & _ & _ & C' & _). exact C'.
          * right. apply D in Es as [_ Es]. eauto.
      - cbn [lw]. now left.
      - intros HR. cbn [res_map]. apply post_err. intros w1 d1 E1 _ H2. destruct (HK _ _ _ H2) as [Hr2 _]. destruct (HM _ _ _ H2) as [_ Em2]. exists (surr n 0 1 2). split; [apply surr_ok; lia|]. apply Hstep.
        left. exists i. split; [exact Hr2|]. right. split; [exact Em|]. rewrite Em2. left. auto.
    Qed.
    Lemma lw_add_user tok uid gids : c = SAddUser tok uid gids -> lw (sa_aes e io k c) post None initial None.
    Proof.
      intros Ec. rewrite Ec at 1. apply (lw_membership tok uid gids (fun g => g ∪ list_to_set gids) (fun g => add_groups g gids)).
      - intros. now rewrite Ec.
      - now rewrite Ec.
      - now rewrite Ec.
      - intros u. rewrite Ec. auto.
      - intros s. unfold add_groups. destruct gids; [|f_equal; f_equal; apply union_comm_L]. f_equal. f_equal. cbn. apply set_eq. set_solver.
      - intros s x. rewrite elem_of_union, elem_of_list_to_set, elem_of_list_In. tauto.
    Qed.
    Lemma lw_remove_user tok uid gids : c = SRemoveUser tok uid gids -> lw (sa_aes e io k c) post None initial None.
    Proof.
      intros Ec. rewrite Ec at 1. apply (lw_membership tok uid gids (fun g => g ∖ list_to_set gids) (fun g => Ok (remove_groups g gids))).
      - intros. now rewrite Ec.
      - now rewrite Ec.
      - now rewrite Ec.
      - intros u. rewrite Ec. auto.
      - reflexivity.
      - intros s x. rewrite elem_of_difference. tauto.
    Qed.

    Lemma lw_delete_user tok uid : c = SDeleteUser tok uid -> lw (sa_aes e io k c) post None initial None.
    Proof.
      intros Ec. assert (Hch : changes tr0 c uid) by (rewrite Ec; reflexivity). rewrite Ec at 1. unfold sa_aes. cbn [sa_do]. apply lw_ret_map. unfold sa_delete_user. apply lw_caller; [now rewrite Ec| | |].
      { intros x d y Hr. rewrite Ec. right. exists y. auto. }
      { intros u. rewrite Ec. auto. }
      intros n i o m K Hai SK HK. eapply lw_write; [apply (cell_delete v io Hio uid SU (o uid) ltac:(reflexivity))| |discriminate|].
      { intros w d E HG H1. destruct (HK _ _ _ H1) as [_ Hfr]. now destruct (Hfr uid ltac:(auto)). }
      intros y w d E w' Ey H0 HG H1 Hcalm Hi HD HS. injection Ey as <-. destruct (upd_slots _ _ _ _ _ HS) as [S1 S2]. pose proof su_sg as NSG. destruct (HK _ _ _ H1) as [Hr _].
      set (d' := set_users d (delete uid (d_users d))).
      exists KTrue, (Some (Ok SRUnit)), d', E, (Some (mkSaEvent (surr n 0 1 2) c (Ok SRUnit))). split; [apply stable_true|]. split; [|split; [exact Logic.I|split; [|split; [|now left]]]].
      - constructor; [exact Hi|rewrite HD; apply (gl_n0 _ _ _ HG)|..].
        + intros u. cbn [d_users d' set_users]. destruct (decide (u = uid)) as [->|Hne]; [rewrite lookup_delete; exact S1|].
          rewrite lookup_delete_ne by auto. rewrite S2 by congruence. apply (gl_user _ _ _ HG).
        + intros g s Hg. rewrite S2 by congruence. now apply (gl_group _ _ _ HG).
        + intros g Hg. rewrite S2 by congruence. destruct (gl_ever _ _ _ HG g Hg). split; [assumption|]. eapply settled_mono; [|eassumption]. lia.
        + intros j b' Hib Hb'. rewrite HD in Hib. destruct (gl_new _ _ _ HG j b' Hib Hb') as [N1 N2]. rewrite (S2 _ SG) by congruence. split; [|exact N2].
          destruct (decide (txt b' = uid)) as [->|Hne]; [exact S1|]. now rewrite S2 by congruence.
        + apply (gl_sess _ _ _ HG).
      - constructor.
        + constructor; [lia|apply incl_refl|auto|reflexivity].
        + intros u Hu Hm. rewrite S2 by congruence. cbn [d_users d' set_users]. rewrite lookup_delete_ne by congruence. auto.
        + intros u Hu Hm. cbn [d_users d' set_users]. rewrite lookup_delete_ne; [reflexivity|]. intros <-. apply Hu. rewrite Ec. reflexivity.
        + intros g Hm. rewrite S2 by congruence. auto.
      - split; [reflexivity|]. split; [reflexivity|]. split; [reflexivity|]. split; [apply surr_ok; lia|]. split; [rewrite Ec; left; exists i; auto|]. intros id [[p C]|C]; discriminate.
    Qed.

    Lemma lw_get_identity tok : c = SGetIdentity tok -> lw (sa_aes e io k c) post None initial None.
    Proof.
      intros Ec. rewrite Ec at 1. unfold sa_aes. cbn [sa_do]. apply lw_ret_map, lw_identity.
      - intros w d E HG HI Hacc. apply (HI tok); [now rewrite Ec|exact Hacc].
      - intros n Hr. cbn [res_map]. apply post_err. intros w d E HG _. exists (surr n 0 1 2). split; [apply surr_ok; lia|]. rewrite Ec. exists (Err EIdNotAuthenticated). split; [exact (Hr w d E HG)|auto].
      - intros n w d E uid q H0 HG HI Hcar Hres _. exists (fun w' d' E' => grows w d E w' d' E'), (Some (res_map SRIdentity q)), (Some (mkSaEvent (surr n 0 1 2) c (res_map SRIdentity q))).
        split; [apply stable_grown|]. split; [apply grows_refl|]. split; [auto|]. split; [|now left]. split; [reflexivity|]. split; [reflexivity|]. split; [reflexivity|]. split; [apply surr_ok; lia|].
        split; [rewrite Ec; exists q; auto|]. intros id [[? C]|C]; destruct q; discriminate.
    Qed.

    Lemma lw_new_group tok scopes : c = SNewGroup tok scopes -> scopes_ok -> lw (sa_aes e io k c) post None initial None.
    Proof.
      intros Ec Hwf. unfold scopes_ok in Hwf. rewrite Ec in Hwf. rewrite Ec at 1. unfold sa_aes. cbn [sa_do]. apply lw_ret_map. unfold sa_new_group. apply lw_caller; [now rewrite Ec| | |].
      { intros x d y Hr. rewrite Ec. right. exists y. auto. }
      { intros u. rewrite Ec. auto. }
      intros n i o m K Hai SK HK. assert (Hch : changes tr0 c (i_id i)) by (rewrite Ec in Hai |- *; exact Hai).
      assert (RND : forall mine (K' : KT) p0 p1 p2, rng_dead -> (forall w d E, K' w d E -> K w d E) -> (p0 < p1)%nat -> (p1 < p2)%nat -> ~ three_draws (surr n p0 p1 p2) -> post (Err ERandom) mine K' None).
      { intros mine K' p0 p1 p2 HR HK' L1 L2 H3. apply post_err. intros w d E _ H1. destruct (HK _ _ _ (HK' _ _ _ H1)) as [Hr _]. exists (surr n p0 p1 p2). split; [now apply surr_ok|]. rewrite Ec. left. exists i.
        split; [exact Hr|]. left. auto. }
      apply lw_bindR, lw_new_v4.
      2:{ intros w d E _ _ Hd. cbn [res_map]. apply (RND None K (w_draws w) (w_draws w + 1) (w_draws w + 2))%nat; [eexists _, _; exact Hd|auto|lia|lia|].
          intros (x & _ & _ & C & _). cbn [x_draw surr pos3] in C. congruence. }
      intros w0 d0 E0 b HG0 _ Hb. set (gid := txt b) in *. unfold new_group. set (s := scope_union scopes).
      apply lw_bindR, lw_put_group; [apply uuid_text_valid|apply union_lt, Hwf|apply stable_and; [exact SK|apply (stable_draws None (w_draws w0))]|..].
      2:{ intros w d E K' _ [_ L] HK' Hd. cbn [res_map]. apply (RND (Some gid) K' (w_draws w0) (w_draws w) (w_draws w + 1))%nat; [eexists _, _; exact Hd|intros ? ? ? H'; now destruct (HK' _ _ _ H')|exact L|lia|].
          intros (? & x & _ & _ & C & _). cbn [x_draw surr pos3] in C. congruence. }
      2:{ intros w d E w2 b1 K' _ [_ L] HK' L2 Hb1 Hd. cbn [res_map]. apply (RND (Some gid) K' (w_draws w0) (w_draws w) (w_draws w2))%nat; [eexists _, _; exact Hd|intros ? ? ? H'; now destruct (HK' _ _ _ H')|exact L|exact L2|].
          intros (? & ? & x & _ & _ & C). cbn [x_draw surr pos3] in C. rewrite Nat.add_0_r in C. congruence. }
      intros w1 d1 E1 w2 b1 b2 HG1 [_ L1] L2 Hb1 Hb2. set (p := surr n (w_draws w0) (w_draws w1) (w_draws w2)).
      assert (Hp : outside_ok e p) by now apply surr_ok.
      assert (X0 : x_draw p 0 16 = Ok b) by exact Hb.
      assert (T3 : three_draws p). { exists b, b1, b2. split; [exact X0|]. split; [exact Hb1|]. cbn [x_draw p surr pos3]. now rewrite Nat.add_0_r. }
      assert (X2 : all_of scopes s) by apply union_all_of.
      set (K1 := (fun w' d' E' => (K w' d' E' /\ (w_draws w0 < w_draws w')%nat) /\ written gid s w' d' E') : KT).
      assert (SK1 : stable (Some gid) K1) by (apply stable_and; [apply stable_and; [now apply stable_more|apply (stable_draws _ (w_draws w0))]|apply stable_written]).
      apply lw_bindR, lw_get_user. intros w3 d3 E3 _ HG3 H3. exists K1, None, None. split; [exact SK1|]. split; [exact H3|]. split; [split; reflexivity|].
      destruct H3 as [[H3 _] W3]. destruct (HK _ _ _ H3) as [Hr3 Hfr3]. destruct (caller_user _ _ _ _ Hr3) as (a & Ea & _). rewrite Ea. intros b0 Hb0 Ha.
      assert (HM : forall w' d' E', K w' d' E' -> slot w' (i_id i) SU = Some b0 /\ d_users d' !! i_id i = Some a).
      { intros w' d' E' H'. destruct (HK _ _ _ H') as [_ Hfr']. destruct (Hfr' (i_id i) ltac:(auto)) as [Ho' Hm']. destruct (Hfr3 (i_id i) ltac:(auto)) as [Ho Hm]. split; congruence. }
      cbn [u_groups u_hash u_scopes account_user add_groups]. apply lw_bindR. unfold lift. cbn [lw]. apply lw_bindR.
      set (gs := list_to_set [gid] ∪ ac_groups a). assert (EG : gs = ac_groups a ∪ {[gid]}) by (unfold gs; apply set_eq; set_solver).
      set (a' := mkAccount (ac_scopes a) (ac_salt a) (ac_hash a) gs). change (mkUser _ _ _) with (account_user a').
      eapply (lw_update_user (i_id i) a' b0 (Ok (SRGroup gid))); [exact Hch| | | | |].
      - destruct Ha as (V1 & V2 & V3 & V4). split; [exact V1|]. split; [exact V2|]. split; [exact V3|]. intros g Hg. cbn [ac_groups a'] in Hg. rewrite EG in Hg.
        apply elem_of_union in Hg as [Hg|Hg]; [auto|]. apply elem_of_singleton in Hg as ->. apply uuid_text_valid.
      - intros id [[? C]|C]; [discriminate|congruence].
      - intros w4 d4 E4 HG4 [[H4 _] (N4 & b4 & S4 & R4)]. destruct (HK _ _ _ H4) as [Hr4 _]. destruct (HM _ _ _ H4) as [M1 M2]. split; [exact M1|].
        exists p, (<[gid := s]> (d_groups d4)). split; [exact Hp|]. split; [|split; [right; exists gid, s, b4; auto 6|split; [right; now rewrite M2|]]].
        + rewrite Ec. left. exists i. split; [exact Hr4|]. right. right. exists b, s. split; [exact X0|]. split; [exact X2|]. cbn zeta. fold gid. rewrite N4. exists a. split; [exact M2|]. split; [reflexivity|]. now rewrite <- EG.
        + intros g Hg. cbn [ac_groups a'] in Hg. rewrite EG in Hg. pose proof (gl_user _ _ _ HG4 (i_id i)) as C. rewrite M2 in C. destruct C as (_ & _ & _ & _ & _ & C).
          apply elem_of_union in Hg as [Hg|Hg].
          * destruct (C g Hg) as [Hg'|[s' Hg']]; [now left|right]. destruct (decide (g = gid)) as [->|Hne]; [rewrite lookup_insert; eauto|rewrite lookup_insert_ne by auto; eauto].
          * apply elem_of_singleton in Hg as ->. right. rewrite lookup_insert. eauto.
      - cbn [lw]. now left.
      - intros HR. cbn [res_map]. right. split; [reflexivity|]. split; [intros id [[? C]|C]; discriminate|]. intros w4 d4 E4 HG4 [[H4 _] (N4 & b4 & S4 & R4)]. destruct (HK _ _ _ H4) as [Hr4 _].
        exists p, (set_groups d4 (<[gid := s]> (d_groups d4))). split; [exact Hp|]. split; [|split].
        + rewrite Ec. left. exists i. split; [exact Hr4|]. right. left. split; [exact HR|]. split; [reflexivity|]. split; [exact T3|]. exists b, s. auto.
        + destruct HG4 as [G1 G2 G3 G4 G5 G6 G7]. constructor; auto.
          * intros u. eapply user_cell_mono; [| |apply (G3 u)]; [|reflexivity]. intros g s' Hg. cbn [d_groups set_groups]. rewrite lookup_insert_ne; [exact Hg|congruence].
          * intros g s' Hg. cbn [d_groups set_groups] in Hg. destruct (decide (g = gid)) as [->|Hne]; [rewrite lookup_insert in Hg; injection Hg as <-; eauto|]. rewrite lookup_insert_ne in Hg by auto. now apply G4.
        + constructor.
          * constructor; [lia|apply incl_refl| |reflexivity]. intros g s' Hg. cbn [d_groups set_groups]. rewrite lookup_insert_ne; [exact Hg|congruence].
          * auto.
          * reflexivity.
          * intros g Hg. cbn [d_groups set_groups]. rewrite lookup_insert_ne by congruence. auto.
    Qed.

    Lemma lw_call : scopes_ok -> lw (sa_aes e io k c) post None initial None.
    Proof.
      intros Hwf. destruct c as [scopes|uid pw|uid old|tok uid gids|tok uid gids|tok uid|tok scopes|tok] eqn:Ec; rewrite <- Ec in *.
      - eapply lw_new_user; eauto.
      - eapply lw_login; eauto.
      - eapply lw_change; eauto.
      - eapply lw_add_user; eauto.
      - eapply lw_remove_user; eauto.
      - eapply lw_delete_user; eauto.
      - eapply lw_new_group; eauto.
      - eapply lw_get_identity; eauto.
    Qed.
  End Thread.
End Conc.
