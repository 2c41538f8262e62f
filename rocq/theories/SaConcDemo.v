(** Overlapping identity-provider calls: a run that meets the hypotheses of C60, and what is lost when calls are at odds. *)
From Coq Require Import ZifyN ZifyNat.
From stdpp Require Import gmap.
From Verif Require D1Refine D1Conc.
From Verif Require Import Bytes Base64 Go Uuid UuidProofs Time Json Types World Logic Cryptor Io IoSpec IoProofs Id Data D1 D1Proofs Sched Password Standalone Spec StandaloneSpec
  WpcFacts TokenFacts StandaloneProofs StandaloneRefine StandaloneHist StandaloneFacts Demo StandaloneDemo D1ConcSpec SaConcSpec SaConcAll.
Local Open Scope bool_scope.
Local Open Scope N_scope.

(** ** What an order of the calls must look like *)
Lemma lin_cuts e d tr1 tr2 tr3 ds d' : sa_linearizes e d (tr1 ++ tr2 ++ tr3) ds d' ->
  exists a b c, ds = a ++ b ++ c /\
    (forall t r, In (IReply t r) tr1 -> In t (map sd_call a)) /\ (forall t, In t (map sd_call a) -> (t < length (id_calls tr1))%nat) /\
    (forall t r, In (IReply t r) (tr1 ++ tr2) -> In t (map sd_call (a ++ b))) /\ (forall t, In t (map sd_call (a ++ b)) -> (t < length (id_calls (tr1 ++ tr2)))%nat).
Proof.
  intros (_ & _ & _ & _ & H). destruct (H tr1 (tr2 ++ tr3) eq_refl) as (a & a' & Ea & A1 & A2).
  destruct (H (tr1 ++ tr2) tr3 ltac:(now rewrite <- app_assoc)) as (b & b' & Eb & B1 & B2). rewrite Ea in Eb. apply app_eq_app in Eb as (m & [(-> & ->)|(-> & ->)]).
  - exists (b ++ m), [], a'. rewrite app_nil_r. split; [exact Ea|]. split; [exact A1|]. split; [exact A2|]. split.
    + intros t r Hr. rewrite map_app, in_app_iff. left. eauto.
    + intros t Ht. rewrite calls_app, app_length. specialize (A2 t Ht). lia.
  - exists a, m, b'. auto.
Qed.
Lemma hist_split d l1 l2 d' : sa_history d (map sd_event (l1 ++ l2)) d' -> exists m, sa_history d (map sd_event l1) m /\ sa_history m (map sd_event l2) d'.
Proof. rewrite map_app. apply sh_app. Qed.
(** What every step of some events keeps. *)
Lemma hist_keeps (P : directory -> Prop) d l d' : sa_history d (map sd_event l) d' -> P d ->
  (forall x d1 d2, In x l -> P d1 -> sa_step (sv_x (sd_event x)) (sv_call (sd_event x)) d1 (sv_reply (sd_event x)) d2 -> P d2) -> P d'.
Proof.
  revert d. induction l as [|x l IH]; cbn [map]; intros d H HP HK.
  - inversion H; subst. exact HP.
  - inversion H as [|? ? d1 ? ? Hs Hr]; subst. apply (IH d1 Hr); [|intros y; intros; eapply HK; eauto; now right]. eapply HK; [now left|exact HP|exact Hs].
Qed.
Lemma in_call_split (l : list sa_did) t : In t (map sd_call l) -> exists l1 x l2, l = l1 ++ x :: l2 /\ sd_call x = t.
Proof. intros H. apply in_map_iff in H as (x & <- & Hx). apply in_split in Hx as (l1 & l2 & ->). eauto. Qed.
Lemma nodup_call (l : list sa_did) : List.NoDup (map sd_call l) -> forall x y, In x l -> In y l -> sd_call x = sd_call y -> x = y.
Proof.
  induction l as [|z l IH]; cbn [map]; intros H x y; [intros []|]. inversion H as [|? ? Hn Hd]; subst. intros [<-|Hx] [<-|Hy] E; auto.
  - exfalso. apply Hn. rewrite E. now apply in_map.
  - exfalso. apply Hn. rewrite <- E. now apply in_map.
Qed.

Lemma nodup_mid (l1 l2 : list sa_did) x z : List.NoDup (map sd_call (l1 ++ x :: l2)) -> In z (l1 ++ l2) -> sd_call z <> sd_call x.
Proof.
  intros H Hz E. rewrite map_app in H. cbn [map] in H. apply List.NoDup_remove_2 in H. apply H. rewrite <- map_app, <- E. now apply in_map.
Qed.
(** An event of an order, and how it fits the observations. *)
Lemma lin_event e d tr ds d' x : sa_linearizes e d tr ds d' -> In x ds ->
  nth_error (id_calls tr) (sd_call x) = Some (sv_call (sd_event x)) /\ x_hash (sv_x (sd_event x)) = pwhash e /\ forall r, In (IReply (sd_call x) r) tr -> sv_reply (sd_event x) = r.
Proof.
  intros (H1 & H2 & H3 & H4 & _) Hx. destruct (H3 x Hx) as [Hc Ho]. split; [exact Hc|]. split; [apply Ho|]. intros r Hr. destruct (H4 _ _ Hr) as (y & Hy & Ey & <-).
  now rewrite (nodup_call ds H2 x y Hx Hy ltac:(congruence)).
Qed.
Lemma lin_in e d tr ds d' t r : sa_linearizes e d tr ds d' -> In (IReply t r) tr -> In t (map sd_call ds).
Proof. intros (_ & _ & _ & H & _) Hr. destruct (H _ _ Hr) as (x & Hx & <- & _). now apply in_map. Qed.
(** A call answered before another is made comes before it. *)
Lemma lin_order e d tr1 tr2 ds d' t t' r : sa_linearizes e d (tr1 ++ tr2) ds d' -> In (IReply t r) tr1 -> (length (id_calls tr1) <= t')%nat -> In t' (map sd_call ds) ->
  exists l1 x l2 y l3, ds = l1 ++ x :: l2 ++ y :: l3 /\ sd_call x = t /\ sd_call y = t'.
Proof.
  intros (_ & _ & _ & _ & H) Hr Ht' Hin. destruct (H tr1 tr2 eq_refl) as (a & b & -> & A1 & A2). rewrite map_app, in_app_iff in Hin. destruct Hin as [Hin|Hin]; [specialize (A2 _ Hin); lia|].
  destruct (in_call_split _ _ (A1 _ _ Hr)) as (l1 & x & l2 & -> & Ex). destruct (in_call_split _ _ Hin) as (l3 & y & l4 & -> & Ey).
  exists l1, x, (l2 ++ l3), y, l4. split; [|auto]. rewrite <- !app_assoc. reflexivity.
Qed.
Lemma step_user_kept x c d r d' u (P : account -> Prop) : sa_step x c d r d' -> (exists a, d_users d !! u = Some a /\ P a) ->
  match c with
  | SNewUser _ | SLogin _ _ | SGetIdentity _ => True
  | SNewGroup _ _ => forall a b, P a -> ac_salt b = ac_salt a -> ac_hash b = ac_hash a -> (forall gid, r = Ok (SRGroup gid) -> ac_groups b = ac_groups a ∪ {[gid]}) -> P b
  | SRemoveUser _ uid _ => uid <> u
  | _ => False
  end -> exists a, d_users d' !! u = Some a /\ P a.
Proof.
  intros Hs (a & Ha & HP) Hc. destruct c; cbn [sa_step] in Hs; try contradiction.
  - destruct Hs as [(_ & _ & ->)|(b & raw & salt & s & _ & _ & _ & _ & Hs)]; [eauto|]. cbn zeta in Hs. destruct (d_users d !! uuid_text (uuid_v4 b)) eqn:E.
    + destruct Hs as [_ ->]. eauto.
    + destruct Hs as [_ ->]. exists a. split; [|exact HP]. cbn [d_users set_users]. rewrite lookup_insert_ne; [exact Ha|]. congruence.
  - destruct (d_users d !! uid) as [a0|]; [|destruct Hs as [_ ->]; eauto]. destruct Hs as [(_ & _ & ->)|(_ & [(_ & _ & ->)|(s & _ & _ & -> & _)])]; eauto.
  - destruct Hs as [(i & _ & [(_ & _ & ->)|(_ & Hs)])|(y & _ & _ & ->)]; eauto. destruct (d_users d !! uid) as [a0|]; [|destruct Hs as [_ ->]; eauto].
    destruct Hs as [(_ & _ & ->)|(_ & ->)]; [eauto|]. exists a. split; [|exact HP]. cbn [d_users set_users]. rewrite lookup_insert_ne; auto.
  - destruct Hs as [(i & _ & [(_ & _ & _ & ->)|[(_ & _ & _ & b & s & _ & _ & _ & ->)|(b & s & _ & _ & Hs)]])|(y & _ & _ & ->)]; eauto. cbn zeta in Hs.
    destruct (d_groups d !! uuid_text (uuid_v4 b)); [destruct Hs as [_ ->]; eauto|]. destruct Hs as (a0 & Ha0 & -> & ->). cbn [d_users]. destruct (decide (i_id i = u)) as [Eu|Ne].
    + rewrite Eu in *. rewrite lookup_insert. eexists. split; [reflexivity|]. assert (a0 = a) as -> by congruence. eapply Hc; [exact HP|reflexivity..|]. intros gid [= <-]. reflexivity.
    + rewrite lookup_insert_ne by exact Ne. eauto.
  - destruct Hs as (q & _ & _ & ->). eauto.
Qed.

(** ** How many random draws a call makes *)
Section Draws.
  Context {S I : Type} (e : env) (io : provider S).
  Notation W := (world S I).
  Fixpoint within {A} (m : nat) (p : prog W A) : Prop :=
    match p with Ret _ => True | Step f q => forall w, exists c, w_draws (snd (f w)) = (w_draws w + c)%nat /\ (c <= m)%nat /\ within (m - c) (q (fst (f w))) end.
  Lemma within_mono {A} (p : prog W A) : forall m m', (m <= m')%nat -> within m p -> within m' p.
  Proof.
    induction p as [a|X f q IH]; intros m m' Hm H; [exact Logic.I|]. intros w. destruct (H w) as (c & H1 & H2 & H3). exists c. split; [exact H1|]. split; [lia|].
    eapply IH; [|exact H3]. lia.
  Qed.
  Lemma within_bind {A B} (p : prog W A) (f : A -> prog W B) : forall a b, within a p -> (forall x, within b (f x)) -> within (a + b) (bind p f).
  Proof.
    induction p as [x|X g q IH]; intros a b Hp Hf; cbn [bind].
    - eapply within_mono; [|apply Hf]. lia.
    - intros w. destruct (Hp w) as (c & H1 & H2 & H3). exists c. split; [exact H1|]. split; [lia|]. replace (a + b - c)%nat with (a - c + b)%nat by lia. now apply IH.
  Qed.
  Lemma within_bindR {A B} (p : prog W (res A)) (f : A -> prog W (res B)) a b : within a p -> (forall x, within b (f x)) -> within (a + b) (bindR p f).
  Proof. intros Hp Hf. apply within_bind; [exact Hp|]. intros [x| |]; cbn; auto. Qed.
  Lemma within_map_err {A} f (p : prog W (res A)) a : within a p -> within a (map_err f p).
  Proof. intros Hp. eapply within_mono; [|apply (within_bind p _ a 0 Hp)]; [lia|]. intros [x| |]; exact Logic.I. Qed.
  Lemma within_io {A} (p : prog S A) : within 0 (on_io p : prog W A).
  Proof.
    induction p as [a|X f q IH]; [exact Logic.I|]. cbn [on_io within]. intros w. exists 0%nat. destruct (f (w_io w)) as [x s]. cbn [fst snd]. split; [cbn; lia|]. split; [lia|apply IH].
  Qed.
  Lemma within_act {X} (f : W -> X * W) : (forall w, w_draws (snd (f w)) = w_draws w) -> within 0 (act f).
  Proof. intros H w. exists 0%nat. rewrite H. split; [lia|]. split; [lia|exact Logic.I]. Qed.
  Lemma within_lift {A} (r : res A) : within 0 (lift r : prog W _).
  Proof. exact Logic.I. Qed.
  Lemma within_get_bytes n : within 1 (get_bytes e n : prog W _).
  Proof. intros w. exists 1%nat. split; [cbn; lia|]. split; [lia|exact Logic.I]. Qed.
  Lemma within_enc kek pt aad : within 2 (aes_enc e kek pt aad : prog W _).
  Proof.
    unfold aes_enc. apply (within_bindR _ _ 1 1); [apply within_get_bytes|intros key]. apply (within_bindR _ _ 1 0); [apply within_get_bytes|intros nonce].
    apply (within_bindR _ _ 0 0); [apply within_lift|intros ct]. apply (within_bindR _ _ 0 0); [apply within_lift|intros wk].
    apply (within_bind _ _ 0 0); [apply within_act; intros w; reflexivity|intros; exact Logic.I].
  Qed.
  Lemma within_dec {A} kek (dec : Json.json -> option A) aad wk ct : within 0 (decrypt_json (aes_cryptor e kek) dec aad wk ct : prog W _).
  Proof.
    unfold decrypt_json. apply (within_bindR _ _ 0 0).
    - cbn [c_dec aes_cryptor]. unfold aes_dec. apply within_act. intros w. destruct (_ && _); reflexivity.
    - intros pt. destruct (unmarshal dec pt); exact Logic.I.
  Qed.
  Lemma within_time : within 0 (time_now e : prog W _).
  Proof. apply within_act. intros w. reflexivity. Qed.
  Context (k : sa_keys).
  Notation uc := (aes_cryptor e (s_uek k)).
  Notation gc := (aes_cryptor e (s_gek k)).
  Notation tc := (aes_cryptor e (s_tek k)).
  Lemma within_get_user uid : within 0 (get_user io uc uid : prog W _).
  Proof. unfold get_user. apply (within_bindR _ _ 0 0); [apply within_map_err, within_io|intros b]. destruct (unmarshal _ b); [apply within_dec|exact Logic.I]. Qed.
  Lemma within_get_group gid : within 0 (get_group io gc gid : prog W _).
  Proof. unfold get_group. apply (within_bindR _ _ 0 0); [apply within_map_err, within_io|intros b]. destruct (unmarshal _ b); [apply within_dec|exact Logic.I]. Qed.
  Lemma within_get_groups gids : forall acc, within 0 (get_groups io gc gids acc : prog W _).
  Proof. induction gids as [|g rest IH]; intros acc; cbn [get_groups]; [exact Logic.I|]. apply (within_bindR _ _ 0 0); [apply within_get_group|intros; apply IH]. Qed.
  Lemma within_put_user uid u b : within 2 (put_user io uc uid u b : prog W _).
  Proof.
    unfold put_user, user_seal, encrypt_json. cbn [c_enc aes_cryptor]. apply (within_bindR _ _ 2 0); [apply (within_bindR _ _ 2 0); [apply within_enc|intros [? ?]; exact Logic.I]|intros su].
    destruct b; apply within_map_err, within_io.
  Qed.
  Lemma within_put_group gid g : within 2 (put_group io gc gid g : prog W _).
  Proof.
    unfold put_group, group_seal, encrypt_json. cbn [c_enc aes_cryptor]. apply (within_bindR _ _ 2 0); [apply (within_bindR _ _ 2 0); [apply within_enc|intros [? ?]; exact Logic.I]|intros su].
    apply within_map_err, within_io.
  Qed.
  Lemma within_new_v4 : within 1 (new_v4 e : prog W _).
  Proof. unfold new_v4. apply (within_bindR _ _ 1 0); [apply within_get_bytes|intros; exact Logic.I]. Qed.
  Lemma within_password : within 2 (generate_password e : prog W _).
  Proof. unfold generate_password. apply (within_bindR _ _ 1 1); [apply within_get_bytes|intros]. apply (within_bindR _ _ 1 0); [apply within_get_bytes|intros; exact Logic.I]. Qed.
  Lemma within_identity tok : within 0 (sa_get_identity e io uc gc tc tok : prog W _).
  Proof.
    unfold sa_get_identity, any_err. apply (within_bindR _ _ 0 0); [apply within_map_err, within_lift|intros st].
    apply (within_bindR _ _ 0 0); [apply within_map_err; unfold token_unseal|intros t].
    - apply (within_bind _ _ 0 0); [apply within_time|intros now]. destruct (time_before _ _); [exact Logic.I|]. destruct (enc_time _); [|exact Logic.I].
      apply (within_bindR _ _ 0 0); [apply within_dec|intros; exact Logic.I].
    - apply (within_bindR _ _ 0 0); [apply within_get_user|intros u]. apply (within_bindR _ _ 0 0); [apply within_get_groups|intros; exact Logic.I].
  Qed.
  Lemma within_call c : within 8 (sa_aes e io k c : prog W _).
  Proof.
    unfold sa_aes. destruct c; cbn [sa_do]; unfold ret_map; (apply (within_bind _ _ 8 0); [|intros; exact Logic.I]).
    - unfold sa_new_user, new_user. apply (within_bindR _ _ 1 7); [apply within_new_v4|intros]. apply (within_bindR _ _ 2 5); [apply (within_bindR _ _ 2 0); [apply within_password|intros [? ?]; exact Logic.I]|intros [? ?]].
      apply (within_bindR _ _ 2 3); [apply within_put_user|intros; exact Logic.I].
    - unfold sa_login, any_err. apply within_map_err, (within_bindR _ _ 0 8); [apply within_get_user|intros]. apply (within_bindR _ _ 0 8); [apply within_lift|intros].
      apply (within_bind _ _ 0 8); [unfold new_token; apply (within_bind _ _ 0 0); [apply within_time|intros; exact Logic.I]|intros t].
      apply (within_bindR _ _ 2 6); [unfold token_seal; destruct (enc_time _); [|exact Logic.I]; apply (within_bindR _ _ 2 0); [apply within_enc|intros [? ?]; exact Logic.I]|intros].
      apply (within_bindR _ _ 0 6); [apply within_lift|intros; exact Logic.I].
    - unfold sa_change_password, any_err, change_password. apply (within_bindR _ _ 0 8); [apply within_map_err, within_get_user|intros].
      apply (within_bindR _ _ 2 6); [apply within_map_err; apply (within_bindR _ _ 0 2); [apply within_lift|intros]; apply (within_bindR _ _ 2 0); [apply within_password|intros [? ?]; exact Logic.I]|intros [? ?]].
      apply (within_bindR _ _ 2 4); [apply within_put_user|intros; exact Logic.I].
    - unfold sa_add_user. apply (within_bindR _ _ 0 8); [apply within_identity|intros]. destruct (negb _); [exact Logic.I|]. apply (within_bindR _ _ 0 8); [apply within_get_user|intros].
      apply (within_bindR _ _ 0 8); [apply within_lift|intros]. eapply within_mono; [|apply within_put_user]. lia.
    - unfold sa_remove_user. apply (within_bindR _ _ 0 8); [apply within_identity|intros]. destruct (negb _); [exact Logic.I|]. apply (within_bindR _ _ 0 8); [apply within_get_user|intros].
      eapply within_mono; [|apply within_put_user]. lia.
    - unfold sa_delete_user. apply (within_bindR _ _ 0 8); [apply within_identity|intros]. eapply within_mono; [|apply within_io]. lia.
    - unfold sa_new_group. apply (within_bindR _ _ 0 8); [apply within_identity|intros]. apply (within_bindR _ _ 1 7); [apply within_new_v4|intros gid]. apply (within_bindR _ _ 2 5); [apply within_put_group|intros _].
      apply (within_bindR _ _ 0 5); [apply within_get_user|intros u]. apply (within_bindR _ _ 0 5); [apply within_lift|intros gs].
      apply (within_bindR _ _ 2 3); [apply within_put_user|intros _]. exact Logic.I.
    - eapply within_mono; [|apply within_identity]. lia.
  Qed.

  (** ** Part of a run *)
  Inductive runs_to {A} : prog W A -> W -> prog W A -> W -> Prop :=
  | rt_nil p w : runs_to p w p w
  | rt_step X (f : W -> X * W) q w p' w' : runs_to (q (fst (f w))) (snd (f w)) p' w' -> runs_to (Step f q) w p' w'.
  Lemma rt_run {A} (p : prog W A) : forall w x w', run p w = (x, w') -> runs_to p w (Ret x) w'.
  Proof.
    induction p as [a|X f q IH]; intros w x w' H; cbn [run] in H; [injection H as <- <-; constructor|]. apply rt_step. destruct (f w) as [y w1]. cbn [fst snd]. auto.
  Qed.
  Lemma rt_bind {A B} (p : prog W A) (f : A -> prog W B) w p' w' : runs_to p w p' w' -> runs_to (bind p f) w (bind p' f) w'.
  Proof. induction 1; [constructor|]. cbn [bind]. now apply rt_step. Qed.
  Lemma rt_trans {A} (p q r : prog W A) w w1 w2 : runs_to p w q w1 -> runs_to q w1 r w2 -> runs_to p w r w2.
  Proof. induction 1; [auto|]. intros H2. apply rt_step. auto. Qed.
  Lemma rt_bindR {A B} (p : prog W (res A)) (f : A -> prog W (res B)) w x w1 q w2 : run p w = (Ok x, w1) -> runs_to (f x) w1 q w2 -> runs_to (bindR p f) w q w2.
  Proof. intros H1 H2. eapply rt_trans; [unfold bindR; apply rt_bind, rt_run; exact H1|]. exact H2. Qed.
  Lemma rt_within {A} (p p' : prog W A) w w' : runs_to p w p' w' -> forall m, within m p -> (w_draws w <= w_draws w' <= w_draws w + m)%nat.
  Proof.
    induction 1 as [p w|X f q w p' w' _ IH]; intros m Hm; [lia|]. destruct (Hm w) as (c & H1 & H2 & H3). specialize (IH _ H3). lia.
  Qed.
  Lemma run_within {A} (p : prog W A) w x w' m : run p w = (x, w') -> within m p -> (w_draws w <= w_draws w' <= w_draws w + m)%nat.
  Proof. intros H. apply rt_within with (p' := Ret x). now apply rt_run. Qed.

  (** Observing on. *)
  Lemma conc_on v pool (w : W) tr pool1 w1 tr2 pool2 w2 : sa_conc e v io k pool w tr pool1 w1 -> sa_conc e v io k pool1 w1 tr2 pool2 w2 -> sa_conc e v io k pool w (tr ++ tr2) pool2 w2.
  Proof. induction 1; cbn [app]; intros H2; [exact H2|eapply ic_env; eauto|eapply ic_call; eauto|eapply ic_step; eauto|eapply ic_reply; eauto]. Qed.
  Lemma conc_runs v t p (w : W) p' w' : runs_to p w p' w' -> forall pool, pool !! t = Some p -> sa_conc e v io k pool w [] (<[t := p']> pool) w'.
  Proof.
    induction 1 as [p w|X f q w p' w' _ IH]; intros pool Hp.
    - rewrite list_insert_id by exact Hp. constructor.
    - eapply ic_step; [exact Hp|]. rewrite <- (list_insert_insert pool t p' (q (fst (f w)))). apply IH. apply list_lookup_insert. eapply lookup_lt_Some; exact Hp.
  Qed.
End Draws.

(** ** A small world: draws differ, the clock stands still *)
Definition ov_env : env := mkEnv (fun i n => Some (repeat (Nb (N.of_nat (Nat.min i 255))) (N.to_nat n))) (fun _ => mkT 0 0 0) (fun pw salt => pw ++ salt).
Lemma ov_clock n : time_wf (clock ov_env n).
Proof. vm_compute. repeat split; discriminate. Qed.
Lemma ov_draw i n : draw ov_env i n = Ok (repeat (Nb (N.of_nat (Nat.min i 255))) (N.to_nat n)).
Proof. unfold draw. cbn [tape ov_env]. unfold blen. now rewrite repeat_length, N2Nat.id, N.eqb_refl. Qed.
Lemma ov_rng {S I} (w : world S I) : ~ rng_failed ov_env w.
Proof. intros [n H]. rewrite ov_draw in H. discriminate. Qed.
Lemma ov_byte i j n b b' : draw ov_env i n = Ok b -> draw ov_env j n = Ok b' -> hd_error b = hd_error b' -> n <> 0 -> Nat.min i 255 = Nat.min j 255.
Proof.
  rewrite !ov_draw. intros [= <-] [= <-] E Hn. destruct (N.to_nat n) as [|m] eqn:En; [lia|]. cbn [repeat hd_error] in E. injection E as E.
  apply (f_equal bN) in E. rewrite !bN_Nb in E by lia. lia.
Qed.
Lemma v4_head b : length b = 16%nat -> hd_error (uuid_v4 b) = hd_error b.
Proof. intros H. do 16 (destruct b as [|? b]; [discriminate|]). destruct b; [|discriminate]. reflexivity. Qed.
Lemma ov_len i n b : draw ov_env i n = Ok b -> length b = N.to_nat n.
Proof. rewrite ov_draw. intros [= <-]. apply repeat_length. Qed.
Lemma ov_ids n : (n <= 256)%nat -> ids_differ ov_env 0 n.
Proof.
  intros Hn i j b b' Hi Hj Hne Hb Hb' E. pose proof (ov_len _ _ _ Hb) as L. pose proof (ov_len _ _ _ Hb') as L'. apply (f_equal hd_error) in E. rewrite !v4_head in E by assumption.
  pose proof (ov_byte _ _ _ _ _ Hb Hb' E ltac:(discriminate)). lia.
Qed.
(** The first draw is unlike any other. *)
Lemma ov_first i j b b' : (i < j)%nat -> (i < 255)%nat -> draw ov_env i 16 = Ok b -> draw ov_env j 16 = Ok b' -> uuid_text (uuid_v4 b) <> uuid_text (uuid_v4 b').
Proof.
  intros Hj Hi Hb Hb' E. apply (SaConc.txt_inj ov_env ov_clock i j b b' Hb Hb') in E. pose proof (ov_len _ _ _ Hb) as L. pose proof (ov_len _ _ _ Hb') as L'.
  apply (f_equal hd_error) in E. rewrite !v4_head in E by assumption. pose proof (ov_byte _ _ _ _ _ Hb Hb' E ltac:(discriminate)). lia.
Qed.

Section Keys.
  Context (k : sa_keys).
  Notation WR := (@WR _ unit mem_view k false).
  Notation conc := (@sa_conc _ unit ov_env mem_view Mem k).
  Notation uc := (aes_cryptor ov_env (s_uek k)).
  Lemma ov_calm (w w' : SW) : calm (surr ov_env w (rng_failed ov_env w')).
  Proof. split; [reflexivity|]. split; [apply ov_rng|reflexivity]. Qed.

  (** The observations so far, the directory and the world they lead to, with at most [n] draws. *)
  Definition at_ (n : nat) (tr : list sa_obs) (pool : list (prog SW (res sa_reply))) (d : directory) (w : SW) : Prop :=
    conc [] sa_w tr pool w /\ WR d w /\ unique d /\ (w_draws w <= n)%nat.
  Lemma at_start : at_ 0 [] [] dir_empty sa_w.
  Proof. split; [constructor|]. split; [apply (fresh_WR mem_view k sa_w (sa_w_fresh k))|]. split; [apply unique_empty|]. cbn. lia. Qed.
  Lemma at_call n tr pool d w c : at_ n tr pool d w -> at_ n (tr ++ [ICall c]) (pool ++ [sa_aes ov_env Mem k c]) d w.
  Proof. intros (H1 & H2). split; [|exact H2]. eapply conc_on; [exact H1|]. apply ic_call. constructor. Qed.
  Lemma at_reply n tr pool d w t r : at_ n tr pool d w -> pool !! t = Some (Ret r) -> at_ n (tr ++ [IReply t r]) pool d w.
  Proof. intros (H1 & H2) Hp. split; [|exact H2]. eapply conc_on; [exact H1|]. eapply ic_reply; [exact Hp|]. constructor. Qed.
  Lemma at_runs n tr pool d w t p p' w' d' : at_ n tr pool d w -> pool !! t = Some p -> runs_to p w p' w' -> within 8 p -> WR d' w' -> unique d' -> at_ (n + 8) tr (<[t := p']> pool) d' w'.
  Proof.
    intros (H1 & H2 & H3 & H4) Hp Hr Hw HW HU. split; [|split; [exact HW|split; [exact HU|]]].
    - rewrite <- (app_nil_r tr). eapply conc_on; [exact H1|]. eapply conc_runs; eauto.
    - pose proof (rt_within _ _ _ _ Hr _ Hw). lia.
  Qed.
  Lemma at_run n tr pool d w t c : at_ n tr pool d w -> pool !! t = Some (sa_aes ov_env Mem k c) -> sa_call_wf c -> ~ suspicious c d ->
    exists r w' d', at_ (n + 8) tr (<[t := Ret r]> pool) d' w' /\ sa_step (surr ov_env w (rng_failed ov_env w')) c d r d' /\ w' = snd (run (sa_aes ov_env Mem k c) w).
  Proof.
    intros Ha Hp Hwf Hs. destruct (run (sa_aes ov_env Mem k c) w) as [r w'] eqn:Er. exists r, w'. pose proof Ha as (H1 & H2 & H3 & H4).
    destruct (call_cases ov_env mem_view Mem (mem_spec False) k ov_clock false c d w r w' Hwf H2 Er) as [[_ X]|(d' & A & B)]; [contradiction|].
    exists d'. split; [|split; [exact B|reflexivity]]. eapply at_runs; [exact Ha|exact Hp|apply rt_run; exact Er|apply within_call|exact A|eapply unique_step; eauto].
  Qed.
  (** A call made, run and answered. *)
  Lemma at_do n tr pool d w c : at_ n tr pool d w -> sa_call_wf c -> ~ suspicious c d ->
    exists r w' d', at_ (n + 8) (tr ++ [ICall c; IReply (length pool) r]) (pool ++ [Ret r]) d' w' /\ sa_step (surr ov_env w (rng_failed ov_env w')) c d r d' /\ w' = snd (run (sa_aes ov_env Mem k c) w).
  Proof.
    intros Ha Hwf Hs. pose proof (at_call _ _ _ _ _ c Ha) as H1.
    destruct (at_run _ _ _ _ _ (length pool) c H1 ltac:(now rewrite lookup_app_r, Nat.sub_diag by lia) Hwf Hs) as (r & w' & d' & H2 & H3).
    exists r, w', d'. split; [|exact H3]. rewrite insert_app_r_alt, Nat.sub_diag in H2 by lia. cbn [insert list_insert] in H2.
    apply (at_reply _ _ _ _ _ (length pool) r) in H2; [|now rewrite lookup_app_r, Nat.sub_diag by lia]. now rewrite <- app_assoc in H2.
  Qed.
  Lemma at_draws n tr pool d w : at_ n tr pool d w -> (w_draws w <= n)%nat.
  Proof. intros H. apply H. Qed.
  Lemma run_grows (c : sa_call) (w : SW) : (w_draws w <= w_draws (snd (run (sa_aes ov_env Mem k c) w)))%nat.
  Proof. destruct (run (sa_aes ov_env Mem k c) w) as [r w'] eqn:E. exact (proj1 (run_within _ _ _ _ 8 E (within_call ov_env Mem k c))). Qed.

  (** NewGroup, up to the point where it has read the caller's record. *)
  Definition group_rest (uid gid : bytes) (a : account) : prog SW (res sa_reply) :=
    ret_map SRGroup (bindR (put_user Mem uc uid (account_user a) true) (fun _ => Ret (Ok gid))).
  Definition joined (a : account) (gid : bytes) : account := mkAccount (ac_scopes a) (ac_salt a) (ac_hash a) (list_to_set [gid] ∪ ac_groups a).
  Lemma group_half (d : directory) (w : SW) (tok u : bytes) (a : account) (b : bytes) : WR d w -> unique d -> says d tok u T1 -> d_users d !! u = Some a -> (forall g, g ∈ ac_groups a -> is_Some (d_groups d !! g)) ->
    draw ov_env (w_draws w) 16 = Ok b -> d_groups d !! uuid_text (uuid_v4 b) = None ->
    let gid := uuid_text (uuid_v4 b) in
    exists w' s, runs_to (sa_aes ov_env Mem k (SNewGroup tok [ScopeAll])) w (group_rest u gid (joined a gid)) w' /\ WR (set_groups d (<[gid := s]> (d_groups d))) w' /\
      account_ok u (joined a gid) /\ (w_draws w < w_draws w')%nat.
  Proof.
    intros Hw U Sy Ha Hg Hb Hn gid. set (s := scope_union [ScopeAll]).
    (* who is calling *)
    destruct (run (sa_aes ov_env Mem k (SGetIdentity tok)) w) as [r w1] eqn:Er.
    destruct (call_cases ov_env mem_view Mem (mem_spec False) k ov_clock false (SGetIdentity tok) d w r w1 Logic.I Hw Er) as [[_ X]|(d1 & W1 & q & Rq & E1 & ->)]; [destruct (X _ _ Sy)|].
    cbn [x_now surr clock ov_env] in Rq. destruct (resolve_ok _ _ _ _ _ U Sy Ha Rq) as [(i & (D1 & _) & ->)|(g & G1 & G2 & _)]; [|destruct (Hg _ G1); congruence].
    assert (R1 : run (sa_get_identity ov_env Mem uc (aes_cryptor ov_env (s_gek k)) (aes_cryptor ov_env (s_tek k)) tok) w = (Ok i, w1)).
    { unfold sa_aes in Er. cbn [sa_do] in Er. rewrite D1Refine.run_ret_map in Er. destruct (run _ w) as [q0 w0]. cbn [fst snd] in Er. injection Er as Eq ->. rewrite E1 in Eq.
      destruct q0 as [i0| |]; try discriminate. cbn [res_map] in Eq. injection Eq as ->. reflexivity. }
    assert (Dr : w_draws w1 = w_draws w).
    { pose proof (run_within _ _ _ _ 0 R1 (within_identity ov_env Mem k tok)). lia. }
    (* the id *)
    assert (R2 : run (new_v4 ov_env : prog SW _) w1 = (Ok (uuid_v4 b), set_draws w1 (w_draws w1 + 1))).
    { unfold new_v4, get_bytes, bindR, act. cbn [bind run]. rewrite Dr, Hb. reflexivity. }
    assert (W2 : WR d (set_draws w1 (w_draws w1 + 1))).
    { pose proof (wpc_end _ _ _ _ (draw_WR ov_env mem_view k false d 16 w1 W1)) as (X & _). unfold get_bytes, act in X. cbn [run snd] in X. exact X. }
    set (w2 := set_draws w1 (w_draws w1 + 1)) in *.
    (* the group *)
    destruct (run (put_group Mem (aes_cryptor ov_env (s_gek k)) gid (mkGroup s)) w2) as [r3 w3] eqn:R3.
    pose proof (wpc_end _ _ _ _ (group_put ov_env False mem_view Mem (mem_spec False) k false d gid s w2 W2 (uuid_text_valid _) (union_lt _ all_lt))) as P3. rewrite R3 in P3. cbn [fst snd] in P3.
    destruct P3 as [(_ & X & _)|[(X & _)|[(_ & -> & _ & W3)|((X & _) & _)]]]; [destruct (ov_rng _ X)|destruct (X Hn)| |destruct X].
    (* the record *)
    destruct (run (get_user Mem uc (i_id i)) w3) as [r4 w4] eqn:R4.
    pose proof (wpc_end _ _ _ _ (user_get ov_env False mem_view Mem (mem_spec False) k false _ (i_id i) w3 W3)) as P4. rewrite R4 in P4. cbn [fst snd] in P4.
    destruct P4 as (W4 & _ & P4). cbn [d_users set_groups] in P4. rewrite D1, Ha in P4. destruct P4 as [(a0 & E0 & Ok0 & ->)|[(X & _)|(X & _)]]; [|discriminate|destruct X]. injection E0 as <-.
    exists w4, s. split; [|split; [exact W4|split]].
    - unfold sa_aes. cbn [sa_do]. unfold group_rest. unfold ret_map at 1. unfold ret_map. apply rt_bind. unfold sa_new_group.
      eapply rt_bindR; [exact R1|]. eapply rt_bindR; [exact R2|]. eapply rt_bindR; [exact R3|]. eapply rt_bindR; [exact R4|]. rewrite D1. cbn [u_groups u_hash u_scopes account_user add_groups].
      eapply rt_bindR; [reflexivity|]. apply rt_nil.
    - destruct Ok0 as (V1 & V2 & V3 & V4). split; [exact V1|]. split; [exact V2|]. split; [exact V3|]. intros g Hgg. cbn [ac_groups joined] in Hgg.
      apply elem_of_union in Hgg as [Hgg|Hgg]; [|now apply V4]. apply elem_of_list_to_set, elem_of_list_singleton in Hgg as ->. apply uuid_text_valid.
    - pose proof (run_within _ _ _ _ 2 R3 (within_put_group ov_env Mem k gid (mkGroup s))). pose proof (run_within _ _ _ _ 0 R4 (within_get_user ov_env Mem k (i_id i))).
      change (w_draws w2) with (w_draws w1 + 1)%nat in *. lia.
  Qed.
  Lemma group_end (d : directory) (w : SW) (u gid : bytes) (a : account) : WR d w -> is_Some (d_users d !! u) -> account_ok u a ->
    exists w', runs_to (group_rest u gid a) w (Ret (Ok (SRGroup gid))) w' /\ WR (set_users d (<[u := a]> (d_users d))) w'.
  Proof.
    intros Hw Hu Ha. destruct (run (put_user Mem uc u (account_user a) true) w) as [r w1] eqn:R1.
    pose proof (wpc_end _ _ _ _ (user_put ov_env False mem_view Mem (mem_spec False) k false d u a true w Hw Ha)) as P. rewrite R1 in P. cbn [fst snd] in P.
    destruct P as [(_ & X & _)|[(X & _)|[(_ & -> & _ & W3)|((X & _) & _)]]]; [destruct (ov_rng _ X)|destruct (X Hu)| |destruct X].
    exists w1. split; [|exact W3]. unfold group_rest, ret_map. eapply rt_trans; [apply rt_bind; eapply rt_bindR; [exact R1|apply rt_nil]|]. cbn [bind res_map]. apply rt_nil.
  Qed.
  Lemma rest_within (u gid : bytes) (a : account) : within 8 (group_rest u gid a).
  Proof. unfold group_rest, ret_map. apply (within_bind _ _ 8 0); [|intros; exact Logic.I]. apply (within_bindR _ _ 2 6); [apply within_put_user|intros; exact Logic.I]. Qed.

  (** AddUserToGroups, once it knows who is calling and that they are a member. *)
  Definition add_rest (x g : bytes) : prog SW (res sa_reply) :=
    ret_map (fun _ => SRUnit) (bindR (get_user Mem uc x) (fun u => bindR (lift (add_groups (u_groups u) [g])) (fun gs => put_user Mem uc x (mkUser (u_hash u) (u_scopes u) gs) true))).
  Lemma add_half (d : directory) (w : SW) (tok u x g : bytes) (a : account) : WR d w -> unique d -> says d tok u T1 -> d_users d !! u = Some a ->
    (forall g, g ∈ ac_groups a -> is_Some (d_groups d !! g)) -> g ∈ ac_groups a ->
    exists w', runs_to (sa_aes ov_env Mem k (SAddUser tok x [g])) w (add_rest x g) w' /\ WR d w'.
  Proof.
    intros Hw U Sy Ha Hg Hin.
    destruct (run (sa_aes ov_env Mem k (SGetIdentity tok)) w) as [r w1] eqn:Er.
    destruct (call_cases ov_env mem_view Mem (mem_spec False) k ov_clock false (SGetIdentity tok) d w r w1 Logic.I Hw Er) as [[_ X]|(d1 & W1 & q & Rq & E1 & ->)]; [destruct (X _ _ Sy)|].
    cbn [x_now surr clock ov_env] in Rq. destruct (resolve_ok _ _ _ _ _ U Sy Ha Rq) as [(i & (D1 & _ & D3 & D4) & ->)|(g0 & G1 & G2 & _)]; [|destruct (Hg _ G1); congruence].
    assert (R1 : run (sa_get_identity ov_env Mem uc (aes_cryptor ov_env (s_gek k)) (aes_cryptor ov_env (s_tek k)) tok) w = (Ok i, w1)).
    { unfold sa_aes in Er. cbn [sa_do] in Er. rewrite D1Refine.run_ret_map in Er. destruct (run _ w) as [q0 w0]. cbn [fst snd] in Er. injection Er as Eq ->. rewrite E1 in Eq.
      destruct q0 as [i0| |]; try discriminate. cbn [res_map] in Eq. injection Eq as ->. reflexivity. }
    exists w1. split; [|exact W1]. unfold sa_aes. cbn [sa_do]. unfold add_rest, ret_map. apply rt_bind. unfold sa_add_user. eapply rt_bindR; [exact R1|].
    assert (M : member_of_all i [g] = true).
    { unfold member_of_all. cbn [forallb]. rewrite Bool.andb_true_r. apply bool_decide_eq_true. destruct (D3 _ Hin) as [s Hs]. apply elem_of_union_r, elem_of_dom. exists s. apply D4. auto. }
    rewrite M. cbn [negb]. apply rt_nil.
  Qed.
  Lemma add_end (d : directory) (w : SW) (x g : bytes) (a : account) : WR d w -> d_users d !! x = Some a -> valid_utf8 g = true ->
    exists w', runs_to (add_rest x g) w (Ret (Ok SRUnit)) w' /\ WR (set_users d (<[x := joined a g]> (d_users d))) w'.
  Proof.
    intros Hw Hx Hg. destruct (run (get_user Mem uc x) w) as [r4 w4] eqn:R4.
    pose proof (wpc_end _ _ _ _ (user_get ov_env False mem_view Mem (mem_spec False) k false _ x w Hw)) as P4. rewrite R4 in P4. cbn [fst snd] in P4.
    destruct P4 as (W4 & _ & P4). rewrite Hx in P4. destruct P4 as [(a0 & E0 & Ok0 & ->)|[(X & _)|(X & _)]]; [|discriminate|destruct X]. injection E0 as <-.
    assert (Ok1 : account_ok x (joined a g)).
    { destruct Ok0 as (V1 & V2 & V3 & V4). split; [exact V1|]. split; [exact V2|]. split; [exact V3|]. intros g' Hgg. cbn [ac_groups joined] in Hgg.
      apply elem_of_union in Hgg as [Hgg|Hgg]; [|now apply V4]. apply elem_of_list_to_set, elem_of_list_singleton in Hgg as ->. exact Hg. }
    destruct (run (put_user Mem uc x (account_user (joined a g)) true) w4) as [r w1] eqn:R1.
    pose proof (wpc_end _ _ _ _ (user_put ov_env False mem_view Mem (mem_spec False) k false d x _ true w4 W4 Ok1)) as P. rewrite R1 in P. cbn [fst snd] in P.
    destruct P as [(_ & X & _)|[(X & _)|[(_ & -> & _ & W3)|((X & _) & _)]]]; [destruct (ov_rng _ X)|destruct X; eauto| |destruct X].
    exists w1. split; [|exact W3]. unfold add_rest, ret_map. eapply rt_trans.
    - apply rt_bind. eapply rt_bindR; [exact R4|]. cbn [u_groups u_hash u_scopes account_user add_groups]. eapply rt_bindR; [reflexivity|]. apply rt_run. exact R1.
    - cbn [bind res_map]. apply rt_nil.
  Qed.
  Lemma add_rest_within (x g : bytes) : within 8 (add_rest x g).
  Proof.
    unfold add_rest, ret_map. apply (within_bind _ _ 8 0); [|intros; exact Logic.I]. apply (within_bindR _ _ 0 8); [apply within_get_user|intros u]. apply (within_bindR _ _ 0 8); [apply within_lift|intros gs].
    eapply within_mono; [|apply within_put_user]. lia.
  Qed.
End Keys.
(** ** Scenes *)
Section Scenes.
  Context (k : sa_keys).
  Notation at_ := (at_ k).
  (** A user, logged in. *)
  Lemma one_user : exists u p tok w d a,
    at_ 16 [ICall (SNewUser [ScopeAll]); IReply 0 (Ok (SRUser u p)); ICall (SLogin u p); IReply 1 (Ok (SRToken tok (time_unix T1)))] [Ret (Ok (SRUser u p)); Ret (Ok (SRToken tok (time_unix T1)))] d w /\
    says d tok u T1 /\ d_users d !! u = Some a /\ ac_groups a = ∅ /\ p ++ ac_salt a = ac_hash a /\ d_groups d = ∅ /\ (0 < w_draws w)%nat /\
    (exists b, draw ov_env 0 16 = Ok b /\ u = uuid_text (uuid_v4 b)) /\ (exists raw, draw ov_env 1 32 = Ok raw /\ p = b64url_encode raw) /\
    (forall y, is_Some (d_users d !! y) -> y = u).
  Proof.
    destruct (at_do k _ _ _ _ _ (SNewUser [ScopeAll]) (at_start k) all_lt (fun X => X)) as (r1 & w1 & d1 & R1 & S1 & E1).
    destruct S1 as [(X & _)|(b & raw & salt & s & B1 & B2 & _ & _ & B3)]; [destruct (ov_rng _ X)|]. cbn zeta in B3. cbn [x_draw surr sa_w demo_w w_draws] in B1, B2.
    cbn [d_users dir_empty] in B3. rewrite lookup_empty in B3. destruct B3 as (-> & D1). cbn [x_hash surr pwhash ov_env] in D1.
    set (u := uuid_text (uuid_v4 b)) in *. set (p := b64url_encode raw) in *. set (a := mkAccount s salt (p ++ salt) ∅) in *.
    assert (A1 : d_users d1 !! u = Some a) by (rewrite D1; apply lookup_insert).
    destruct (at_do k _ _ _ _ _ (SLogin u p) R1 Logic.I (fun X => X)) as (r2 & w2 & d2 & R2 & S2 & E2).
    destruct (login_ok _ _ _ _ _ _ a (ov_calm _ _) A1 eq_refl S2) as (tok & -> & D2 & Y2).
    exists u, p, tok, w2, d2, a. split; [exact R2|]. split; [exact Y2|]. split; [rewrite D2; exact A1|]. split; [reflexivity|]. split; [reflexivity|]. split; [rewrite D2, D1; reflexivity|].
    split; [|split; [eauto|]; split; [eauto|]; intros y [ay Hy]; rewrite D2, D1 in Hy; cbn [d_users add_session set_users dir_empty] in Hy; apply lookup_insert_Some in Hy as [[<- _]|[_ Hy]]; [reflexivity|rewrite lookup_empty in Hy; discriminate]].
    pose proof (new_user_draws ov_env Mem k [ScopeAll] sa_w) as L. rewrite <- E1 in L. pose proof (run_grows k (SLogin u p) w1) as L2. rewrite <- E2 in L2. change (w_draws sa_w) with 0%nat in L. lia.
  Qed.

  (** *** A password change lost to a NewGroup of the same user *)
  Definition lost_password_tr (u p p2 tok tok2 gid : bytes) : list sa_obs :=
    [ICall (SNewUser [ScopeAll]); IReply 0 (Ok (SRUser u p)); ICall (SLogin u p); IReply 1 (Ok (SRToken tok (time_unix T1)));
     ICall (SNewGroup tok [ScopeAll]); ICall (SChangePassword u p); IReply 3 (Ok (SRPassword p2)); IReply 2 (Ok (SRGroup gid));
     ICall (SLogin u p); IReply 4 (Ok (SRToken tok2 (time_unix T1))); ICall (SLogin u p2); IReply 5 (Err EIdNotAuthenticated)].
  Lemma lost_password_run : exists u p p2 tok tok2 gid pool' (w' : SW), sa_conc ov_env mem_view Mem k [] sa_w (lost_password_tr u p p2 tok tok2 gid) pool' w' /\ p <> p2.
  Proof.
    destruct (one_user) as (u & p & tok & w & d & a & R & Y & Au & Ag & K & G & Dr & _ & (raw & Hraw & Ep) & _).
    assert (Z : forall g, g ∈ ac_groups a -> is_Some (d_groups d !! g)) by (intros g Hg; rewrite Ag in Hg; now apply elem_of_empty in Hg).
    pose proof (ov_draw (w_draws w) 16) as Hb. set (b := repeat _ _) in Hb.
    destruct (group_half k d w tok u a b (proj1 (proj2 R)) (proj1 (proj2 (proj2 R))) Y Au Z Hb ltac:(rewrite G; apply lookup_empty)) as (w3 & s & H3 & W3 & Ok3 & L3).
    set (gid := uuid_text (uuid_v4 b)) in *.
    pose proof (at_call k _ _ _ _ _ (SNewGroup tok [ScopeAll]) R) as R2.
    pose proof (at_runs k _ _ _ _ _ 2 _ _ _ _ R2 eq_refl H3 (within_call ov_env Mem k _) W3 (proj1 (proj2 (proj2 R)))) as R3. clear R2.
    pose proof (at_call k _ _ _ _ _ (SChangePassword u p) R3) as R4.
    destruct (at_run k _ _ _ _ _ 3 (SChangePassword u p) R4 eq_refl Logic.I (fun X => X)) as (r4 & w4 & d4 & R5 & S5 & E5). clear R4.
    cbn [sa_step d_users set_groups] in S5. rewrite Au in S5. unfold knows in S5. cbn [x_hash surr pwhash ov_env x_rng_fails x_draw] in S5.
    destruct S5 as [(N & _)|(_ & [(X & _)|(raw2 & salt2 & Hraw2 & _ & S5)])]; [contradiction|destruct (ov_rng _ X)|]. cbn zeta in S5. destruct S5 as (-> & D4).
    set (p2 := b64url_encode raw2) in *.
    assert (Np : p <> p2).
    { intros E. rewrite Ep in E. apply Base64Proofs.b64url_inj in E. rewrite Nat.add_0_r in Hraw2. pose proof (ov_byte 1 (w_draws w3) 32 raw raw2 Hraw Hraw2 ltac:(congruence) ltac:(discriminate)). lia. }
    apply (at_reply k _ _ _ _ _ 3 (Ok (SRPassword p2))) in R5; [|reflexivity].
    assert (A4 : is_Some (d_users d4 !! u)) by (rewrite D4; cbn [d_users set_users]; rewrite lookup_insert; eauto).
    destruct (group_end k d4 w4 u gid (joined a gid) (proj1 (proj2 R5)) A4 Ok3) as (w6 & H6 & W6).
    pose proof (at_runs k _ _ _ _ _ 2 _ _ _ _ R5 eq_refl H6 (rest_within k u gid _) W6 (proj1 (proj2 (proj2 R5)))) as R6.
    apply (at_reply k _ _ _ _ _ 2 (Ok (SRGroup gid))) in R6; [|reflexivity].
    set (d6 := set_users d4 _) in *. assert (A6 : d_users d6 !! u = Some (joined a gid)) by (apply lookup_insert).
    destruct (at_do k _ _ _ _ _ (SLogin u p) R6 Logic.I (fun X => X)) as (r7 & w7 & d7 & R7 & S7 & _).
    destruct (login_ok _ _ _ _ _ _ (joined a gid) (ov_calm _ _) A6 K S7) as (tok2 & -> & D7 & _).
    destruct (at_do k _ _ _ _ _ (SLogin u p2) R7 Logic.I (fun X => X)) as (r8 & w8 & d8 & R8 & S8 & _).
    cbn [sa_step] in S8. rewrite D7 in S8. cbn [d_users add_session] in S8. rewrite A6 in S8. unfold knows in S8. cbn [x_hash surr pwhash ov_env joined ac_salt ac_hash] in S8.
    destruct S8 as [(_ & -> & _)|(C & _)].
    - exists u, p, p2, tok, tok2, gid. do 2 eexists. split; [exact (proj1 R8)|exact Np].
    - exfalso. apply Np. rewrite <- K in C. apply app_inv_tail in C. congruence.
  Qed.
  Lemma lost_password_unordered u p p2 tok tok2 gid ds d' : p <> p2 -> ~ sa_linearizes ov_env dir_empty (lost_password_tr u p p2 tok tok2 gid) ds d'.
  Proof.
    intros Np H. pose proof H as (Hh & Hn & _).
    destruct (lin_order ov_env dir_empty (take 8 (lost_password_tr u p p2 tok tok2 gid)) (drop 8 (lost_password_tr u p p2 tok tok2 gid)) ds d' 3 4 (Ok (SRPassword p2))) as (l1 & x & l2 & y & l3 & -> & Ex & Ey).
    { exact H. } { cbn. auto 10. } { cbn. lia. } { eapply lin_in; [exact H|]. cbn. auto 20. }
    destruct (lin_event _ _ _ _ _ x H ltac:(rewrite in_app_iff; right; now left)) as (Cx & Hx & Rx). destruct (lin_event _ _ _ _ _ y H ltac:(rewrite !in_app_iff; right; right; rewrite in_app_iff; right; now left)) as (Cy & Hy & Ry).
    rewrite Ex in Cx, Rx. rewrite Ey in Cy, Ry. cbn in Cx, Cy. injection Cx as Cx. injection Cy as Cy. specialize (Rx (Ok (SRPassword p2)) ltac:(cbn; auto 20)). specialize (Ry (Ok (SRToken tok2 (time_unix T1))) ltac:(cbn; auto 20)).
    apply hist_split in Hh as (m1 & _ & Hh). change (x :: l2 ++ y :: l3) with ([x] ++ l2 ++ y :: l3) in Hh. apply hist_split in Hh as (m2 & H1 & Hh). apply hist_split in Hh as (m3 & H2 & Hh).
    change (y :: l3) with ([y] ++ l3) in Hh. apply hist_split in Hh as (m4 & H3 & _). cbn [map] in H1, H3. apply sh_one in H1, H3. rewrite <- Cx, Rx in H1. rewrite <- Cy, Ry in H3.
    set (P := fun a : account => ac_hash a = p2 ++ ac_salt a).
    assert (P2 : exists a, d_users m2 !! u = Some a /\ P a).
    { cbn [sa_step] in H1. destruct (d_users m1 !! u) as [a|]; [|destruct H1; discriminate]. destruct H1 as [(_ & C & _)|(_ & [(_ & [C|C] & _)|(raw & salt & _ & _ & H1)])]; try discriminate. cbn zeta in H1.
      destruct H1 as [E ->]. injection E as ->. cbn [d_users set_users]. rewrite lookup_insert. eexists. split; [reflexivity|]. unfold P. cbn. now rewrite Hx. }
    assert (P3 : exists a, d_users m3 !! u = Some a /\ P a).
    { apply (hist_keeps (fun d => exists a, d_users d !! u = Some a /\ P a) m2 l2 m3 H2 P2). intros z d1 d2 Hz HP Hs. eapply step_user_kept; [exact Hs|exact HP|].
      destruct (lin_event _ _ _ _ _ z H ltac:(rewrite !in_app_iff; right; right; rewrite in_app_iff; now left)) as (Cz & _ & _).
      assert (Nz : sd_call z <> 3%nat).
      { rewrite <- Ex. apply (nodup_mid _ _ _ _ Hn). rewrite !in_app_iff. auto. }
      destruct (sd_call z) as [|[|[|[|[|[|n]]]]]]; cbn in Cz; [..|destruct n; discriminate]; injection Cz as <-; try exact Logic.I; [|congruence]. intros a0 b0 H0 E1 E2 _. unfold P in *. congruence. }
    destruct P3 as (a & Ea & Pa). cbn [sa_step] in H3. rewrite Ea in H3. unfold knows in H3. rewrite Hy in H3. cbn [pwhash ov_env] in H3. cbn zeta in H3.
    destruct H3 as [(_ & C & _)|(C & _)]; [discriminate|]. unfold P in Pa. rewrite Pa in C. apply app_inv_tail in C. auto.
  Qed.

  (** *** A removal from a group lost to a NewGroup of the same user *)
  Definition lost_removal_tr (u p tok g1 g2 : bytes) (i : identity) : list sa_obs :=
    [ICall (SNewUser [ScopeAll]); IReply 0 (Ok (SRUser u p)); ICall (SLogin u p); IReply 1 (Ok (SRToken tok (time_unix T1)));
     ICall (SNewGroup tok [ScopeAll]); IReply 2 (Ok (SRGroup g1));
     ICall (SNewGroup tok [ScopeAll]); ICall (SRemoveUser tok u [g1]); IReply 4 (Ok SRUnit); IReply 3 (Ok (SRGroup g2));
     ICall (SGetIdentity tok); IReply 5 (Ok (SRIdentity i))].
  Lemma remove_ok x tok uid gids d r d' caller ac a : calm x -> unique d -> says d tok caller T1 -> d_users d !! caller = Some ac ->
    (forall g, g ∈ ac_groups ac -> is_Some (d_groups d !! g)) -> (forall g, In g gids -> g = caller \/ g ∈ ac_groups ac) -> d_users d !! uid = Some a ->
    sa_step x (SRemoveUser tok uid gids) d r d' ->
    r = Ok SRUnit /\ d' = set_users d (<[uid := mkAccount (ac_scopes a) (ac_salt a) (ac_hash a) (ac_groups a ∖ list_to_set gids)]> (d_users d)).
  Proof.
    intros C U Sy Hca Hg Hin Ha St. destruct (caller_ok _ _ _ _ _ _ _ _ C U Sy Hca Hg St) as (i & (D1 & _ & D3 & D4) & B).
    destruct B as [(N & _)|(_ & B)].
    - exfalso. apply N. intros g Hi. destruct (Hin g Hi) as [->|X]; [left; congruence|]. right. destruct (D3 g X) as [s Es]. exists s. apply D4. auto.
    - rewrite Ha in B. destruct B as [(X & _)|B]; [|exact B]. destruct C as (_ & C & _). contradiction.
  Qed.
  (** A user with a group. *)
  Lemma user_group : exists u p tok g1 w d a,
    at_ 24 [ICall (SNewUser [ScopeAll]); IReply 0 (Ok (SRUser u p)); ICall (SLogin u p); IReply 1 (Ok (SRToken tok (time_unix T1))); ICall (SNewGroup tok [ScopeAll]); IReply 2 (Ok (SRGroup g1))]
      [Ret (Ok (SRUser u p)); Ret (Ok (SRToken tok (time_unix T1))); Ret (Ok (SRGroup g1))] d w /\
    says d tok u T1 /\ d_users d !! u = Some a /\ ac_groups a = {[g1]} /\ (forall g, is_Some (d_groups d !! g) <-> g = g1) /\
    (exists n b, (0 < n < 255)%nat /\ (n < w_draws w)%nat /\ draw ov_env n 16 = Ok b /\ g1 = uuid_text (uuid_v4 b)) /\ (exists b, draw ov_env 0 16 = Ok b /\ u = uuid_text (uuid_v4 b)) /\ (forall y, is_Some (d_users d !! y) -> y = u).
  Proof.
    destruct (one_user) as (u & p & tok & w & d & a & R & Y & Au & Ag & K & G & Dr & Du & _ & Only).
    assert (Z : forall g, g ∈ ac_groups a -> is_Some (d_groups d !! g)) by (intros g Hg; rewrite Ag in Hg; now apply elem_of_empty in Hg).
    pose proof (ov_draw (w_draws w) 16) as Hb. set (b := repeat _ _) in Hb.
    assert (Gb : d_groups d !! uuid_text (uuid_v4 b) = None) by (rewrite G; apply lookup_empty).
    destruct (group_half k d w tok u a b (proj1 (proj2 R)) (proj1 (proj2 (proj2 R))) Y Au Z Hb Gb) as (w3 & s3 & H3 & _ & _ & L3).
    destruct (at_do k _ _ _ _ _ (SNewGroup tok [ScopeAll]) R all_lt) as (r2 & w2 & d2 & R2 & S2 & E2). { intros N. exact (N _ _ Y). }
    pose proof S2 as S2'. destruct (group_ok (surr ov_env w (rng_failed ov_env w2)) _ _ _ _ _ _ _ b (ov_calm w w2) (proj1 (proj2 (proj2 R))) Y Au Z ltac:(cbn [x_draw surr]; rewrite Nat.add_0_r; exact Hb) Gb S2) as (s & -> & _ & D2). clear S2.
    set (g1 := uuid_text (uuid_v4 b)) in *.
    exists u, p, tok, g1, w2, d2. eexists. split; [exact R2|]. split; [exact (says_step _ _ _ _ _ _ _ _ S2' Y)|]. split; [rewrite D2; apply lookup_insert|]. cbn [ac_groups].
    split; [rewrite Ag; apply set_eq; set_solver|]. split; [|split; [|split; [exact Du|intros y [ay Hy]; rewrite D2 in Hy; cbn [d_users] in Hy; apply lookup_insert_Some in Hy as [[<- _]|[_ Hy]]; eauto]]].
    - intros g. rewrite D2. cbn [d_groups]. rewrite G. destruct (decide (g = g1)) as [->|Ne]; [rewrite lookup_insert; split; eauto|]. rewrite lookup_insert_ne by congruence. rewrite lookup_empty. split; [intros [? ?]; discriminate|contradiction].
    - exists (w_draws w), b. pose proof (at_draws k _ _ _ _ _ R). split; [lia|]. split; [|auto].
      (* NewGroup draws *)
      destruct (run (sa_aes ov_env Mem k (SNewGroup tok [ScopeAll])) w) as [r w'] eqn:Er. cbn [snd] in E2. subst w'.
      clear - H3 L3 Er. assert (X : forall (p q : prog SW (res sa_reply)) (w w3 : SW), runs_to p w q w3 -> forall r w2, run p w = (r, w2) -> run q w3 = (r, w2)).
      { intros p q w0 w1 H. induction H as [|X f q0 w0 p' w' _ IH]; intros r0 w4 E; [exact E|]. cbn [run] in E. destruct (f w0) as [x w1]. cbn [fst snd] in IH. auto. }
      apply (X _ _ _ _ H3) in Er. pose proof (run_within _ _ _ _ 8 Er (rest_within k _ _ _)). lia.
  Qed.
  Lemma lost_removal_run : exists u p tok g1 g2 i pool' (w' : SW), sa_conc ov_env mem_view Mem k [] sa_w (lost_removal_tr u p tok g1 g2 i) pool' w' /\
    g1 <> g2 /\ i_id i = u /\ is_Some (i_groups i !! g1).
  Proof.
    destruct user_group as (u & p & tok & g1 & w & d & a & R & Y & Au & Ag & G & (n & b1 & Hn & Ln & Hb1 & E1) & _).
    assert (Z : forall g, g ∈ ac_groups a -> is_Some (d_groups d !! g)) by (intros g Hg; rewrite Ag in Hg; apply elem_of_singleton in Hg as ->; now apply G).
    pose proof (ov_draw (w_draws w) 16) as Hb. set (b := repeat _ _) in Hb.
    assert (Ng : g1 <> uuid_text (uuid_v4 b)). { rewrite E1. apply (ov_first n (w_draws w)); [lia|lia|exact Hb1|exact Hb]. }
    assert (Gb : d_groups d !! uuid_text (uuid_v4 b) = None). { destruct (d_groups d !! _) eqn:E; [|reflexivity]. exfalso. apply Ng. symmetry. apply G. eauto. }
    destruct (group_half k d w tok u a b (proj1 (proj2 R)) (proj1 (proj2 (proj2 R))) Y Au Z Hb Gb) as (w3 & s & H3 & W3 & Ok3 & L3).
    set (g2 := uuid_text (uuid_v4 b)) in *. set (d3 := set_groups d _) in W3.
    assert (Z3 : forall g, g ∈ ac_groups a -> is_Some (d_groups d3 !! g)).
    { intros g Hg. cbn [d_groups d3 set_groups]. destruct (decide (g2 = g)) as [->|Ne]; [rewrite lookup_insert; eauto|]. rewrite lookup_insert_ne by exact Ne. auto. }
    pose proof (at_call k _ _ _ _ _ (SNewGroup tok [ScopeAll]) R) as R2.
    pose proof (at_runs k _ _ _ _ _ 3 _ _ _ _ R2 eq_refl H3 (within_call ov_env Mem k _) W3 (proj1 (proj2 (proj2 R)))) as R3. clear R2.
    assert (M1 : forall g, In g [g1] -> g = u \/ g ∈ ac_groups a) by (intros g [<-|[]]; right; rewrite Ag; now apply elem_of_singleton).
    pose proof (at_call k _ _ _ _ _ (SRemoveUser tok u [g1]) R3) as R4.
    destruct (at_run k _ _ _ _ _ 4 (SRemoveUser tok u [g1]) R4 eq_refl Logic.I) as (r4 & w4 & d4 & R5 & S5 & _). { intros N. exact (N _ _ Y). }
    destruct (remove_ok _ _ _ _ _ _ _ u a a (ov_calm _ _) (proj1 (proj2 (proj2 R3))) Y Au Z3 M1 Au S5) as (-> & D4).
    apply (at_reply k _ _ _ _ _ 4 (Ok SRUnit)) in R5; [|reflexivity].
    assert (A4 : is_Some (d_users d4 !! u)) by (rewrite D4; cbn [d_users set_users]; rewrite lookup_insert; eauto).
    destruct (group_end k d4 w4 u g2 (joined a g2) (proj1 (proj2 R5)) A4 Ok3) as (w6 & H6 & W6).
    pose proof (at_runs k _ _ _ _ _ 3 _ _ _ _ R5 eq_refl H6 (rest_within k u g2 _) W6 (proj1 (proj2 (proj2 R5)))) as R6.
    apply (at_reply k _ _ _ _ _ 3 (Ok (SRGroup g2))) in R6; [|reflexivity].
    set (d6 := set_users d4 _) in *. assert (A6 : d_users d6 !! u = Some (joined a g2)) by (apply lookup_insert).
    assert (Y6 : says d6 tok u T1) by exact (says_step _ _ _ _ _ _ _ _ S5 Y).
    destruct (at_do k _ _ _ _ _ (SGetIdentity tok) R6 Logic.I) as (r7 & w7 & d7 & R7 & S7 & _). { intros N. exact (N _ _ Y6). }
    destruct S7 as (q & Rq & -> & ->). cbn [x_now surr clock ov_env] in Rq.
    assert (Z6 : forall g, g ∈ ac_groups (joined a g2) -> is_Some (d_groups d6 !! g)).
    { intros g Hg. cbn [ac_groups joined] in Hg. cbn [d_groups d6 set_users]. rewrite D4. cbn [d_groups set_users]. apply elem_of_union in Hg as [Hg|Hg]; [|now apply Z3].
      apply elem_of_list_to_set, elem_of_list_singleton in Hg as ->. cbn [d_groups d3 set_groups]. rewrite lookup_insert. eauto. }
    destruct (resolve_ok _ _ _ _ _ (proj1 (proj2 (proj2 R6))) Y6 A6 Rq) as [(i & (D1 & _ & _ & D5) & ->)|(g & Hg & Hx & _)]; [|destruct (Z6 _ Hg); congruence].
    exists u, p, tok, g1, g2, i. do 2 eexists. split; [exact (proj1 R7)|]. split; [exact Ng|]. split; [exact D1|].
    assert (H1 : g1 ∈ ac_groups (joined a g2)) by (cbn [ac_groups joined]; rewrite Ag; set_solver). destruct (Z6 _ H1) as [s1 Hs1]. exists s1. apply D5. auto.
  Qed.
  Lemma lost_removal_unordered u p tok g1 g2 i ds d' : g1 <> g2 -> i_id i = u -> is_Some (i_groups i !! g1) -> ~ sa_linearizes ov_env dir_empty (lost_removal_tr u p tok g1 g2 i) ds d'.
  Proof.
    intros Ng Hi (sg & Hig) H. set (tr := lost_removal_tr u p tok g1 g2 i) in *. pose proof H as (Hh & Hn & _).
    destruct (lin_cuts ov_env dir_empty (take 6 tr) (take 4 (drop 6 tr)) (drop 4 (drop 6 tr)) ds d' H) as (la & lb & lc & -> & A1 & A2 & B1 & B2).
    assert (In2 : In 2%nat (map sd_call la)) by (apply (A1 _ (Ok (SRGroup g1))); cbn; auto 10).
    assert (In4 : In 4%nat (map sd_call lb)).
    { assert (X : In 4%nat (map sd_call (la ++ lb))) by (apply (B1 _ (Ok SRUnit)); cbn; auto 20). rewrite map_app, in_app_iff in X. destruct X as [X|X]; [|exact X]. specialize (A2 _ X). cbn in A2. lia. }
    assert (In5 : In 5%nat (map sd_call lc)).
    { pose proof (lin_in _ _ _ _ _ 5%nat (Ok (SRIdentity i)) H ltac:(cbn; auto 20)) as X. rewrite !map_app, !in_app_iff in X. destruct X as [X|[X|X]]; [specialize (A2 _ X); cbn in A2; lia| |exact X].
      specialize (B2 5%nat ltac:(rewrite map_app, in_app_iff; auto)). cbn in B2. lia. }
    destruct (in_call_split _ _ In4) as (l1 & x & l2 & -> & Ex). destruct (in_call_split _ _ In5) as (l3 & y & l4 & -> & Ey).
    destruct (lin_event _ _ _ _ _ x H ltac:(rewrite !in_app_iff; cbn; auto)) as (Cx & _ & Rx). destruct (lin_event _ _ _ _ _ y H ltac:(rewrite !in_app_iff; cbn; auto)) as (Cy & _ & Ry).
    rewrite Ex in Cx, Rx. rewrite Ey in Cy, Ry. cbn in Cx, Cy. injection Cx as Cx. injection Cy as Cy. specialize (Rx (Ok SRUnit) ltac:(cbn; auto 20)). specialize (Ry (Ok (SRIdentity i)) ltac:(cbn; auto 20)).
    replace (la ++ (l1 ++ x :: l2) ++ l3 ++ y :: l4) with ((la ++ l1) ++ [x] ++ (l2 ++ l3) ++ [y] ++ l4) in Hh by (rewrite <- !app_assoc; reflexivity).
    apply hist_split in Hh as (m1 & _ & Hh). apply hist_split in Hh as (m2 & H1 & Hh). apply hist_split in Hh as (m3 & H2 & Hh). apply hist_split in Hh as (m4 & H3 & _).
    cbn [map] in H1, H3. apply sh_one in H1, H3. rewrite <- Cx, Rx in H1. rewrite <- Cy, Ry in H3.
    set (P := fun a : account => g1 ∉ ac_groups a).
    assert (P2 : exists a, d_users m2 !! u = Some a /\ P a).
    { destruct H1 as [(j & _ & [(_ & C & _)|(_ & H1)])|(z & _ & C & _)]; try discriminate. destruct (d_users m1 !! u) as [a|]; [|destruct H1; discriminate]. destruct H1 as [(_ & C & _)|(_ & ->)]; [discriminate|].
      cbn [d_users set_users]. rewrite lookup_insert. eexists. split; [reflexivity|]. unfold P. cbn. set_solver. }
    assert (P3 : exists a, d_users m3 !! u = Some a /\ P a).
    { apply (hist_keeps (fun d => exists a, d_users d !! u = Some a /\ P a) m2 (l2 ++ l3) m3 H2 P2). intros z d1 d2 Hz HP Hs. eapply step_user_kept; [exact Hs|exact HP|].
      assert (Hz' : In z (la ++ (l1 ++ x :: l2) ++ l3 ++ y :: l4)) by (rewrite !in_app_iff in *; cbn; tauto).
      destruct (lin_event _ _ _ _ _ z H Hz') as (Cz & _ & Rz).
      assert (Nz : sd_call z <> 4%nat).
      { rewrite <- Ex. replace (la ++ (l1 ++ x :: l2) ++ l3 ++ y :: l4) with ((la ++ l1) ++ x :: (l2 ++ l3 ++ y :: l4)) in Hn by (rewrite <- !app_assoc; reflexivity).
        apply (nodup_mid _ _ _ _ Hn). rewrite !in_app_iff in *. tauto. }
      assert (Nz2 : sd_call z <> 2%nat).
      { intros E. destruct (in_call_split _ _ In2) as (a1 & x2 & a2 & -> & Ex2). rewrite <- Ex2 in E. revert E.
        replace ((a1 ++ x2 :: a2) ++ (l1 ++ x :: l2) ++ l3 ++ y :: l4) with (a1 ++ x2 :: (a2 ++ l1 ++ x :: l2 ++ l3 ++ y :: l4)) in Hn by (rewrite <- !app_assoc; reflexivity).
        apply (nodup_mid _ _ _ _ Hn). rewrite !in_app_iff in *. cbn. rewrite !in_app_iff. tauto. }
      destruct (sd_call z) as [|[|[|[|[|[|n]]]]]] eqn:Ez; cbn in Cz; [..|destruct n; discriminate]; injection Cz as <-; try exact Logic.I; try congruence.
      intros a0 b0 H0 E1 E2 E3. specialize (Rz (Ok (SRGroup g2)) ltac:(cbn; auto 20)). specialize (E3 g2 Rz). unfold P in *. rewrite E3. set_solver. }
    destruct P3 as (a & Ea & Pa). destruct H3 as (q & Rq & Eq & _). destruct q as [j| |]; try discriminate. cbn [res_map] in Eq. injection Eq as <-.
    destruct Rq as [(uid & exp & _ & _ & Rq)|[_ C]]; [|discriminate]. destruct (d_users m3 !! uid) as [a'|] eqn:Ea'; [|discriminate].
    destruct Rq as [(j & (D1 & _ & _ & D4) & Ej)|(g & _ & _ & C)]; [|discriminate]. injection Ej as <-. apply D4 in Hig as [Hig _]. apply Pa. congruence.
  Qed.

  (** *** A member removed from a group whose call, under way, still lets somebody in *)
  Definition late_add_tr (u p tok g x px tokx : bytes) (i : identity) : list sa_obs :=
    [ICall (SNewUser [ScopeAll]); IReply 0 (Ok (SRUser u p)); ICall (SLogin u p); IReply 1 (Ok (SRToken tok (time_unix T1)));
     ICall (SNewGroup tok [ScopeAll]); IReply 2 (Ok (SRGroup g));
     ICall (SNewUser [ScopeAll]); IReply 3 (Ok (SRUser x px)); ICall (SLogin x px); IReply 4 (Ok (SRToken tokx (time_unix T1)));
     ICall (SAddUser tok x [g]); ICall (SRemoveUser tok u [g]); IReply 6 (Ok SRUnit);
     ICall (SGetIdentity tokx); IReply 7 (Ok (SRIdentity i)); IReply 5 (Ok SRUnit)].
  (** Two users, one of them with a group. *)
  Lemma two_users : exists u p tok g x px tokx w d a ax,
    at_ 40 (take 10 (late_add_tr u p tok g x px tokx (mkIdentity [] 0 ∅)))
      [Ret (Ok (SRUser u p)); Ret (Ok (SRToken tok (time_unix T1))); Ret (Ok (SRGroup g)); Ret (Ok (SRUser x px)); Ret (Ok (SRToken tokx (time_unix T1)))] d w /\
    says d tok u T1 /\ d_users d !! u = Some a /\ ac_groups a = {[g]} /\ (forall g', is_Some (d_groups d !! g') <-> g' = g) /\
    says d tokx x T1 /\ d_users d !! x = Some ax /\ ac_groups ax = ∅ /\ px ++ ac_salt ax = ac_hash ax /\ u <> x /\ g <> u /\ valid_utf8 g = true /\ g <> x /\
    (exists n b, (n < w_draws w)%nat /\ draw ov_env n 16 = Ok b /\ g = uuid_text (uuid_v4 b)).
  Proof.
    destruct user_group as (u & p & tok & g & w & d & a & R & Y & Au & Ag & G & (n & b1 & Hn & Ln & Hb1 & E1) & (b0 & Hb0 & E0) & Only).
    destruct (at_do k _ _ _ _ _ (SNewUser [ScopeAll]) R all_lt (fun X => X)) as (r1 & w1 & d1 & R1 & S1 & Ew1).
    pose proof (ov_draw (w_draws w) 16) as Hb. set (b := repeat _ _) in Hb. set (x := uuid_text (uuid_v4 b)) in *.
    assert (Nux : u <> x). { rewrite E0. apply (ov_first 0 (w_draws w)); [lia|lia|exact Hb0|exact Hb]. }
    assert (Ngx : g <> x). { rewrite E1. apply (ov_first n (w_draws w)); [lia|lia|exact Hb1|exact Hb]. }
    pose proof S1 as S1'. destruct S1 as [(X & _)|(b' & raw & salt & s & B1 & B2 & _ & _ & B3)]; [destruct (ov_rng _ X)|]. cbn zeta in B3. cbn [x_draw surr] in B1. rewrite Nat.add_0_r, Hb in B1. injection B1 as <-.
    fold x in B3.
    destruct (d_users d !! x) as [ax0|] eqn:Ex; [destruct Nux; symmetry; apply Only; eauto|]. destruct B3 as [-> D1]. cbn [x_hash surr pwhash ov_env] in D1.
    set (px := b64url_encode raw) in *. set (ax := mkAccount s salt (px ++ salt) ∅) in *.
    assert (A1 : d_users d1 !! x = Some ax) by (rewrite D1; apply lookup_insert).
    destruct (at_do k _ _ _ _ _ (SLogin x px) R1 Logic.I (fun X => X)) as (r2 & w2 & d2 & R2 & S2 & Ew2).
    destruct (login_ok _ _ _ _ _ _ ax (ov_calm _ _) A1 eq_refl S2) as (tokx & -> & D2 & Y2).
    exists u, p, tok, g, x, px, tokx, w2, d2, a, ax. split; [exact R2|]. split; [exact (says_step _ _ _ _ _ _ _ _ S2 (says_step _ _ _ _ _ _ _ _ S1' Y))|].
    split; [rewrite D2, D1; cbn [d_users add_session set_users]; rewrite lookup_insert_ne by congruence; exact Au|]. split; [exact Ag|].
    split; [intros g'; rewrite D2, D1; exact (G g')|]. split; [exact Y2|]. split; [rewrite D2; exact A1|]. split; [reflexivity|]. split; [reflexivity|]. split; [exact Nux|].
    split; [rewrite E0, E1; intros E; symmetry in E; revert E; apply (ov_first 0 n); [lia|lia|exact Hb0|exact Hb1]|]. split; [rewrite E1; apply uuid_text_valid|]. split; [exact Ngx|].
    exists n, b1. pose proof (run_grows k (SNewUser [ScopeAll]) w) as L1. rewrite <- Ew1 in L1. pose proof (run_grows k (SLogin x px) w1) as L2. rewrite <- Ew2 in L2. split; [lia|auto].
  Qed.
  Lemma late_add_run : exists u p tok g x px tokx i pool' (w' : SW), sa_conc ov_env mem_view Mem k [] sa_w (late_add_tr u p tok g x px tokx i) pool' w' /\
    u <> x /\ g <> u /\ i_id i = x /\ i_groups i !! g = None.
  Proof.
    destruct two_users as (u & p & tok & g & x & px & tokx & w & d & a & ax & R & Y & Au & Ag & G & Yx & Ax & Agx & _ & Nux & Ngu & Vg & _).
    assert (Z : forall g', g' ∈ ac_groups a -> is_Some (d_groups d !! g')) by (intros g' Hg; rewrite Ag in Hg; apply elem_of_singleton in Hg as ->; now apply G).
    destruct (add_half k d w tok u x g a (proj1 (proj2 R)) (proj1 (proj2 (proj2 R))) Y Au Z ltac:(rewrite Ag; now apply elem_of_singleton)) as (w3 & H3 & W3).
    pose proof (at_call k _ _ _ _ _ (SAddUser tok x [g]) R) as R2.
    pose proof (at_runs k _ _ _ _ _ 5 _ _ _ _ R2 eq_refl H3 (within_call ov_env Mem k _) W3 (proj1 (proj2 (proj2 R)))) as R3. clear R2.
    assert (M1 : forall g', In g' [g] -> g' = u \/ g' ∈ ac_groups a) by (intros g' [<-|[]]; right; rewrite Ag; now apply elem_of_singleton).
    pose proof (at_call k _ _ _ _ _ (SRemoveUser tok u [g]) R3) as R4.
    destruct (at_run k _ _ _ _ _ 6 (SRemoveUser tok u [g]) R4 eq_refl Logic.I) as (r4 & w4 & d4 & R5 & S5 & _). { intros N. exact (N _ _ Y). }
    destruct (remove_ok _ _ _ _ _ _ _ u a a (ov_calm _ _) (proj1 (proj2 (proj2 R3))) Y Au Z M1 Au S5) as (-> & D4).
    apply (at_reply k _ _ _ _ _ 6 (Ok SRUnit)) in R5; [|reflexivity].
    assert (A4 : d_users d4 !! x = Some ax) by (rewrite D4; cbn [d_users set_users]; rewrite lookup_insert_ne by exact Nux; exact Ax).
    assert (Y4 : says d4 tokx x T1) by exact (says_step _ _ _ _ _ _ _ _ S5 Yx).
    destruct (at_do k _ _ _ _ _ (SGetIdentity tokx) R5 Logic.I) as (r7 & w7 & d7 & R7 & S7 & _). { intros N. exact (N _ _ Y4). }
    destruct S7 as (q & Rq & -> & ->). cbn [x_now surr clock ov_env] in Rq.
    destruct (resolve_ok _ _ _ _ _ (proj1 (proj2 (proj2 R5))) Y4 A4 Rq) as [(i & (D1 & _ & _ & D5) & ->)|(g0 & Hg & _ & _)]; [|rewrite Agx in Hg; now apply elem_of_empty in Hg].
    destruct (add_end k d4 w7 x g ax (proj1 (proj2 R7)) A4 Vg) as (w8 & H8 & W8).
    pose proof (at_runs k _ _ _ _ _ 5 _ _ _ _ R7 eq_refl H8 (add_rest_within k x g) W8 (proj1 (proj2 (proj2 R7)))) as R8.
    apply (at_reply k _ _ _ _ _ 5 (Ok SRUnit)) in R8; [|reflexivity].
    exists u, p, tok, g, x, px, tokx, i. do 2 eexists. split; [exact (proj1 R8)|]. split; [exact Nux|]. split; [exact Ngu|]. split; [exact D1|].
    destruct (i_groups i !! g) as [s|] eqn:E; [|reflexivity]. apply D5 in E as [E _]. rewrite Agx in E. now apply elem_of_empty in E.
  Qed.
  Lemma late_add_unordered u p tok g x px tokx i ds d' : u <> x -> g <> u -> i_id i = x -> i_groups i !! g = None -> ~ sa_linearizes ov_env dir_empty (late_add_tr u p tok g x px tokx i) ds d'.
  Proof.
    intros Nux Ngu Hi Hig H. set (tr := late_add_tr u p tok g x px tokx i) in *. pose proof H as (Hh & Hn & _).
    (* 0..4 come first, then 6, then 7 *)
    destruct (lin_cuts ov_env dir_empty (take 10 tr) (take 3 (drop 10 tr)) (drop 3 (drop 10 tr)) ds d' H) as (la & lb & lc & -> & A1 & A2 & B1 & B2).
    assert (In6 : In 6%nat (map sd_call lb)).
    { assert (X : In 6%nat (map sd_call (la ++ lb))) by (apply (B1 _ (Ok SRUnit)); cbn; auto 20). rewrite map_app, in_app_iff in X. destruct X as [X|X]; [|exact X]. specialize (A2 _ X). cbn in A2. lia. }
    assert (In7 : In 7%nat (map sd_call lc)).
    { pose proof (lin_in _ _ _ _ _ 7%nat (Ok (SRIdentity i)) H ltac:(cbn; auto 20)) as X. rewrite !map_app, !in_app_iff in X. destruct X as [X|[X|X]]; [specialize (A2 _ X); cbn in A2; lia| |exact X].
      specialize (B2 7%nat ltac:(rewrite map_app, in_app_iff; auto)). cbn in B2. lia. }
    assert (In5 : In 5%nat (map sd_call (lb ++ lc))).
    { pose proof (lin_in _ _ _ _ _ 5%nat (Ok SRUnit) H ltac:(cbn; auto 20)) as X. rewrite map_app, in_app_iff in X. destruct X as [X|X]; [specialize (A2 _ X); cbn in A2; lia|exact X]. }
    assert (Low : forall z, In z (lb ++ lc) -> (5 <= sd_call z)%nat).
    { intros z Hz. destruct (Nat.le_gt_cases 5 (sd_call z)) as [L|L]; [exact L|exfalso].
      assert (X : In (sd_call z) (map sd_call la)).
      { destruct (sd_call z) as [|[|[|[|[|m]]]]]; [apply (A1 _ (Ok (SRUser u p)))|apply (A1 _ (Ok (SRToken tok (time_unix T1))))|apply (A1 _ (Ok (SRGroup g)))|apply (A1 _ (Ok (SRUser x px)))|apply (A1 _ (Ok (SRToken tokx (time_unix T1))))|lia]; cbn; auto 20. }
      rewrite map_app in Hn. apply in_map_iff in X as (z' & E & Hz'). destruct (in_split _ _ Hz') as (m1 & m2 & ->).
      rewrite <- map_app in Hn. replace ((m1 ++ z' :: m2) ++ lb ++ lc) with (m1 ++ z' :: (m2 ++ lb ++ lc)) in Hn by (rewrite <- !app_assoc; reflexivity).
      apply (nodup_mid _ _ _ z Hn); [rewrite !in_app_iff in *; tauto|congruence]. }
    (* who the token is for *)
    apply hist_split in Hh as (m0 & Ha & Hh).
    assert (U0 : unique m0) by (eapply unique_history; [exact Ha|apply unique_empty]).
    assert (Y0 : exists exp, says m0 tok u exp).
    { assert (X : In 1%nat (map sd_call la)) by (apply (A1 _ (Ok (SRToken tok (time_unix T1)))); cbn; auto 10). destruct (in_call_split _ _ X) as (a1 & y & a2 & -> & Ey).
      destruct (lin_event _ _ _ _ _ y H ltac:(rewrite !in_app_iff; cbn; auto)) as (Cy & _ & Ry). rewrite Ey in Cy, Ry. cbn in Cy. injection Cy as Cy. specialize (Ry _ ltac:(right; right; right; left; reflexivity)).
      apply hist_split in Ha as (n1 & _ & Ha). change (y :: a2) with ([y] ++ a2) in Ha. apply hist_split in Ha as (n2 & H1 & H2). cbn [map] in H1. apply sh_one in H1. rewrite <- Cy, Ry in H1. cbn [sa_step] in H1.
      destruct (d_users n1 !! u) as [a|]; [|destruct H1; discriminate]. destruct H1 as [(_ & C & _)|(_ & [(_ & C & _)|(s & _ & C & _ & Hs)])]; try discriminate. injection C as <- _.
      eexists. eapply says_history; [exact H2|]. apply Hs. auto. }
    destruct Y0 as (xp & Y0).
    (* where 5 is *)
    destruct (in_call_split _ _ In5) as (l1 & y & l2 & El & Ey).
    assert (Iny : In y (la ++ lb ++ lc)) by (rewrite El, !in_app_iff; cbn; auto).
    destruct (lin_event _ _ _ _ _ y H Iny) as (Cy & _ & Ry). rewrite Ey in Cy, Ry. cbn in Cy. injection Cy as Cy. specialize (Ry (Ok SRUnit) ltac:(cbn; auto 20)).
    destruct (in_call_split _ _ In6) as (b1 & y6 & b2 & -> & E6). destruct (in_call_split _ _ In7) as (c1 & y7 & c2 & -> & E7).
    assert (Iny6 : In y6 (la ++ (b1 ++ y6 :: b2) ++ c1 ++ y7 :: c2)) by (rewrite !in_app_iff; cbn; auto).
    assert (Iny7 : In y7 (la ++ (b1 ++ y6 :: b2) ++ c1 ++ y7 :: c2)) by (rewrite !in_app_iff; cbn; auto).
    destruct (lin_event _ _ _ _ _ y6 H Iny6) as (C6 & _ & R6). rewrite E6 in C6, R6. cbn in C6. injection C6 as C6. specialize (R6 (Ok SRUnit) ltac:(cbn; auto 20)).
    destruct (lin_event _ _ _ _ _ y7 H Iny7) as (C7 & _ & R7). rewrite E7 in C7, R7. cbn in C7. injection C7 as C7. specialize (R7 (Ok (SRIdentity i)) ltac:(cbn; auto 20)).
    assert (Kind : forall z, In z ((b1 ++ y6 :: b2) ++ c1 ++ y7 :: c2) -> z = y \/ z = y6 \/ z = y7).
    { intros z Hz. assert (Inz : In z (la ++ (b1 ++ y6 :: b2) ++ c1 ++ y7 :: c2)) by (rewrite in_app_iff; auto). specialize (Low _ Hz).
      destruct (lin_event _ _ _ _ _ z H Inz) as (Cz & _ & _). destruct (sd_call z) as [|[|[|[|[|[|[|[|n]]]]]]]] eqn:Ez; try lia; [left|right; left|right; right|destruct n; discriminate];
        apply (nodup_call _ Hn); auto; congruence. }
    assert (L : (b1 ++ y6 :: b2) ++ c1 ++ y7 :: c2 = l1 ++ y :: l2) by exact El.
    assert (Step5 : forall m1 m2, says m1 tok u xp -> unique m1 -> sa_step (sv_x (sd_event y)) (SAddUser tok x [g]) m1 (Ok SRUnit) m2 ->
      (exists a, d_users m1 !! u = Some a /\ g ∈ ac_groups a) /\ (exists a, d_users m2 !! x = Some a /\ g ∈ ac_groups a)).
    { intros m1 m2 Sy Un [(j & Rj & [(_ & C & _)|(Hol & S5)])|(z & _ & C & _)]; try discriminate. destruct Rj as [(u' & xp' & Sy' & _ & Rj)|[_ C]]; [|discriminate].
      destruct (Un _ _ _ _ _ Sy Sy') as [<- <-]. destruct (d_users m1 !! u) as [a|] eqn:Ea; [|discriminate]. destruct Rj as [(j' & (D1 & _ & D3 & D4) & Ej)|(g0 & _ & _ & C)]; [|discriminate]. injection Ej as <-.
      split.
      - exists a. split; [reflexivity|]. destruct (Hol g (or_introl eq_refl)) as [E|[s E]]; [congruence|]. apply D4 in E. apply E.
      - destruct (d_users m1 !! x) as [ax|]; [|destruct S5; discriminate]. destruct S5 as [(_ & C & _)|(_ & ->)]; [discriminate|]. cbn [d_users set_users]. rewrite lookup_insert. eexists. split; [reflexivity|]. cbn. set_solver. }
    assert (Step6 : forall m1 m2, sa_step (sv_x (sd_event y6)) (SRemoveUser tok u [g]) m1 (Ok SRUnit) m2 -> exists a, d_users m2 !! u = Some a /\ g ∉ ac_groups a).
    { intros m1 m2 [(j & _ & [(_ & C & _)|(_ & H1)])|(z & _ & C & _)]; try discriminate. destruct (d_users m1 !! u) as [a|]; [|destruct H1; discriminate]. destruct H1 as [(_ & C & _)|(_ & ->)]; [discriminate|].
      cbn [d_users set_users]. rewrite lookup_insert. eexists. split; [reflexivity|]. cbn. set_solver. }
    assert (Step7 : forall m1 m2, sa_step (sv_x (sd_event y7)) (SGetIdentity tokx) m1 (Ok (SRIdentity i)) m2 -> (exists a, d_users m1 !! x = Some a /\ g ∈ ac_groups a) -> False).
    { intros m1 m2 (q & Rq & Eq & _) (a & Ea & Hga). destruct q as [j| |]; try discriminate. cbn [res_map] in Eq. injection Eq as <-.
      destruct Rq as [(uid & exp & _ & _ & Rq)|[_ C]]; [|discriminate]. destruct (d_users m1 !! uid) as [a'|] eqn:Ea'; [|discriminate].
      destruct Rq as [(j & (D1 & _ & D3 & D4) & Ej)|(g0 & _ & _ & C)]; [|discriminate]. injection Ej as <-. assert (a' = a) as -> by congruence. destruct (D3 _ Hga) as [s Hs].
      assert (E : i_groups i !! g = Some s) by (apply D4; auto). congruence. }
    (* 5 before 6, or after it *)
    clear Low In5 In6 In7 B1 B2 A1 A2 Ha.
    replace ((b1 ++ y6 :: b2) ++ c1 ++ y7 :: c2) with (b1 ++ [y6] ++ (b2 ++ c1) ++ [y7] ++ c2) in L, Hh, Kind by (cbn [app]; rewrite <- !app_assoc; reflexivity).
    assert (N57 : y <> y7) by congruence. assert (N56 : y <> y6) by congruence.
    assert (Dis : List.NoDup (b1 ++ [y6] ++ (b2 ++ c1) ++ [y7] ++ c2)).
    { apply List.NoDup_map_inv in Hn. apply NoDup_ListNoDup, NoDup_app in Hn as (_ & _ & Hn). apply NoDup_ListNoDup. cbn [app] in *. rewrite <- !app_assoc in *. exact Hn. }
    pose proof Dis as Dis0. apply NoDup_ListNoDup in Dis. apply NoDup_app in Dis as (N1 & X1 & Dis). apply NoDup_app in Dis as (_ & X6 & Dis). apply NoDup_app in Dis as (N2 & X2 & Dis). apply NoDup_app in Dis as (_ & X7 & N3).
    assert (only : forall l : list sa_did, (forall z, In z l -> z = y) -> base.NoDup l -> l = [] \/ l = [y]).
    { intros l Hl Hd. destruct l as [|z l]; [auto|]. rewrite (Hl z (or_introl eq_refl)) in *. destruct l as [|z' l]; [auto|]. rewrite (Hl z' ltac:(cbn; auto)) in Hd. apply list.NoDup_cons in Hd as [Hd _]. destruct Hd. left. }
    assert (O1 : b1 = [] \/ b1 = [y]).
    { apply only; [|exact N1]. intros z Hz. destruct (Kind z ltac:(rewrite !in_app_iff; auto)) as [E|[E|E]]; [exact E|exfalso..]; apply elem_of_list_In in Hz; apply (X1 _ Hz); subst z; rewrite !elem_of_app, !elem_of_list_singleton; auto. }
    assert (O2 : b2 ++ c1 = [] \/ b2 ++ c1 = [y]).
    { apply only; [|exact N2]. intros z Hz. destruct (Kind z ltac:(rewrite !in_app_iff in *; tauto)) as [E|[E|E]]; [exact E|exfalso..]; subst z; apply elem_of_list_In in Hz.
      - apply (X6 y6); [left|]. rewrite !elem_of_app in *. auto.
      - apply (X2 _ Hz). rewrite elem_of_app. left. left. }
    assert (O3 : c2 = [] \/ c2 = [y]).
    { apply only; [|exact N3]. intros z Hz. destruct (Kind z ltac:(rewrite !in_app_iff in *; tauto)) as [E|[E|E]]; [exact E|exfalso..]; subst z; apply elem_of_list_In in Hz.
      - apply (X6 y6); [left|]. rewrite !elem_of_app in *. auto.
      - apply (X7 y7); [left|exact Hz]. }
    assert (Iy : In y (b1 ++ [y6] ++ (b2 ++ c1) ++ [y7] ++ c2)) by (rewrite L, in_app_iff; cbn; auto).
    clear Kind X1 X6 X2 X7 N1 N2 N3 only El.
    destruct O2 as [O2|O2]; rewrite O2 in *.
    - destruct O1 as [-> | ->].
      + (* 6, 7, 5 *)
        destruct O3 as [-> | ->]; [cbn in Iy; destruct Iy as [E|[E|[]]]; congruence|]. cbn [app map] in Hh.
        inversion Hh as [|? ? n1 ? ? S6 Hh1]; subst. inversion Hh1 as [|? ? n2 ? ? S7 Hh2]; subst. inversion Hh2 as [|? ? n3 ? ? S5 _]; subst. clear Hh Hh1 Hh2.
        rewrite <- C6, R6 in S6. rewrite <- C7, R7 in S7. rewrite <- Cy, Ry in S5.
        destruct (Step5 _ _ (says_step _ _ _ _ _ _ _ _ S7 (says_step _ _ _ _ _ _ _ _ S6 Y0)) (unique_step _ _ _ _ _ S7 (unique_step _ _ _ _ _ S6 U0)) S5) as [(a & Ea & Ga) _].
        destruct (Step6 _ _ S6) as (a' & Ea' & Ga'). destruct S7 as (_ & _ & _ & ->). congruence.
      + (* 5, 6, 7 *)
        cbn [app map] in Hh. inversion Hh as [|? ? n1 ? ? S5 Hh1]; subst. inversion Hh1 as [|? ? n2 ? ? S6 Hh2]; subst. inversion Hh2 as [|? ? n3 ? ? S7 _]; subst. clear Hh Hh1 Hh2.
        rewrite <- C6, R6 in S6. rewrite <- C7, R7 in S7. rewrite <- Cy, Ry in S5. destruct (Step5 _ _ Y0 U0 S5) as [_ P]. apply (Step7 _ _ S7).
        eapply step_user_kept; [exact S6|exact P|exact Nux].
    - (* 6, 5, 7 *)
      destruct O1 as [-> | ->].
      + cbn [app map] in Hh. inversion Hh as [|? ? n1 ? ? S6 Hh1]; subst. inversion Hh1 as [|? ? n2 ? ? S5 Hh2]; subst. clear Hh Hh1 Hh2.
        rewrite <- C6, R6 in S6. rewrite <- Cy, Ry in S5. destruct (Step5 _ _ (says_step _ _ _ _ _ _ _ _ S6 Y0) (unique_step _ _ _ _ _ S6 U0) S5) as [(a & Ea & Ga) _].
        destruct (Step6 _ _ S6) as (a' & Ea' & Ga'). congruence.
      + cbn [app] in Dis0. inversion Dis0 as [|? ? X _]; subst. apply X. cbn. auto.
  Qed.

  (** *** Calls that are not at odds: the first user makes a second group while the second user changes their password *)
  Definition calm_tr (u p tok g x px tokx g2 px2 : bytes) : list sa_obs :=
    [ICall (SNewUser [ScopeAll]); IReply 0 (Ok (SRUser u p)); ICall (SLogin u p); IReply 1 (Ok (SRToken tok (time_unix T1)));
     ICall (SNewGroup tok [ScopeAll]); IReply 2 (Ok (SRGroup g));
     ICall (SNewUser [ScopeAll]); IReply 3 (Ok (SRUser x px)); ICall (SLogin x px); IReply 4 (Ok (SRToken tokx (time_unix T1)));
     ICall (SNewGroup tok [ScopeAll]); ICall (SChangePassword x px); IReply 6 (Ok (SRPassword px2)); IReply 5 (Ok (SRGroup g2))].
  Fixpoint before_calls (tr : list sa_obs) : list (list sa_obs * sa_call) :=
    match tr with
    | [] => []
    | ICall c :: tr => ([], c) :: map (fun x => (ICall c :: fst x, snd x)) (before_calls tr)
    | IReply t r :: tr => map (fun x => (IReply t r :: fst x, snd x)) (before_calls tr)
    end.
  Lemma before_calls_in tr : forall tr1 c tr2, tr = tr1 ++ ICall c :: tr2 -> In (tr1, c) (before_calls tr).
  Proof.
    induction tr as [|o tr IH]; intros [|o1 tr1] c tr2 E; cbn [app] in E; try discriminate; injection E as -> E.
    - cbn. now left.
    - apply IH in E. destruct o1; cbn [before_calls]; [right|]; apply (in_map (fun x => (_ :: fst x, snd x)) _ _ E).
  Qed.
  Lemma calm_orderly u p tok g x px tokx g2 px2 : u <> x -> ~ same_token tokx tok -> orderly (calm_tr u p tok g x px tokx g2 px2).
  Proof.
    intros Nux Nt tr1 c tr2 E t c' Ht Ho. apply before_calls_in in E. unfold calm_tr in E. cbn [before_calls map fst snd In] in E.
    destruct E as [E|[E|[E|[E|[E|[E|[E|[]]]]]]]]; injection E as <- <-; cbn [id_calls] in Ht.
    - destruct t; discriminate.
    - destruct t as [|[|t]]; try discriminate. eexists. right. now left.
    - destruct t as [|[|[|t]]]; try discriminate; eexists; cbn; eauto 20.
    - destruct t as [|[|[|[|t]]]]; try discriminate; eexists; cbn; eauto 20.
    - destruct t as [|[|[|[|[|t]]]]]; try discriminate; eexists; cbn; eauto 20.
    - destruct t as [|[|[|[|[|[|t]]]]]]; try discriminate; eexists; cbn; eauto 20.
    - destruct t as [|[|[|[|[|[|[|t]]]]]]]; try discriminate; [eexists; cbn; eauto 20..|]. injection Ht as <-. exfalso.
      assert (No : forall tr0, In tr0 [take 11 (calm_tr u p tok g x px tokx g2 px2)] -> ~ carries tr0 (SNewGroup tok [ScopeAll]) x).
      { intros tr0 [<-|[]] (tk & t & pw & tk' & xp & E1 & E2 & E3 & E4). injection E1 as <-. destruct t as [|[|[|[|[|[|t]]]]]]; cbn in E2; try discriminate; try (destruct t; discriminate).
        - injection E2 as E2 _. congruence.
        - cbn in E3. destruct E3 as [E3|[E3|[E3|[E3|[E3|[E3|[E3|[E3|[E3|[E3|[E3|[]]]]]]]]]]]]; try discriminate. injection E3 as <- _. contradiction. }
      specialize (No _ (or_introl eq_refl)). cbn [take calm_tr] in No.
      destruct Ho as [(uid & [(H1 & [H2|H2])|(_ & [])])|(uid & [(H1 & [H2|H2])|(_ & [])])]; cbn [changes acts_for] in *; try contradiction; subst uid; contradiction.
  Qed.
  Lemma calm_run : exists u p tok g x px tokx g2 px2 pool' (w' : SW), let tr := calm_tr u p tok g x px tokx g2 px2 in
    cell_storage mem_view Mem /\ (forall n, time_wf (clock ov_env n)) /\ no_accounts mem_view sa_w /\ sa_conc ov_env mem_view Mem k [] sa_w tr pool' w' /\
    scopes_wf tr /\ orderly tr /\ ids_differ ov_env (w_draws sa_w) (w_draws w') /\ no_guess ov_env (w_draws sa_w) (w_draws w') tr /\ unforged k tr.
  Proof.
    destruct two_users as (u & p & tok & g & x & px & tokx & w & d & a & ax & R & Y & Au & Ag & G & Yx & Ax & Agx & K & Nux & Ngu & Vg & Ngx & (n & b1 & Ln & Hb1 & E1)).
    assert (Z : forall g', g' ∈ ac_groups a -> is_Some (d_groups d !! g')) by (intros g' Hg; rewrite Ag in Hg; apply elem_of_singleton in Hg as ->; now apply G).
    pose proof (ov_draw (w_draws w) 16) as Hb. set (b := repeat _ _) in Hb. pose proof (at_draws k _ _ _ _ _ R) as Lw.
    assert (Ng : g <> uuid_text (uuid_v4 b)). { rewrite E1. apply (ov_first n (w_draws w)); [lia|lia|exact Hb1|exact Hb]. }
    assert (Gb : d_groups d !! uuid_text (uuid_v4 b) = None). { destruct (d_groups d !! _) eqn:E; [|reflexivity]. exfalso. apply Ng. symmetry. apply G. eauto. }
    destruct (group_half k d w tok u a b (proj1 (proj2 R)) (proj1 (proj2 (proj2 R))) Y Au Z Hb Gb) as (w3 & s & H3 & W3 & Ok3 & L3).
    set (g2 := uuid_text (uuid_v4 b)) in *. set (d3 := set_groups d _) in W3.
    pose proof (at_call k _ _ _ _ _ (SNewGroup tok [ScopeAll]) R) as R2.
    pose proof (at_runs k _ _ _ _ _ 5 _ _ _ _ R2 eq_refl H3 (within_call ov_env Mem k _) W3 (proj1 (proj2 (proj2 R)))) as R3. clear R2.
    pose proof (at_call k _ _ _ _ _ (SChangePassword x px) R3) as R4.
    destruct (at_run k _ _ _ _ _ 6 (SChangePassword x px) R4 eq_refl Logic.I (fun X => X)) as (r4 & w4 & d4 & R5 & S5 & _).
    assert (Ax3 : d_users d3 !! x = Some ax) by exact Ax.
    destruct (change_ok _ _ _ _ _ _ ax (ov_calm _ _) Ax3 K S5) as (px2 & salt & -> & D4).
    apply (at_reply k _ _ _ _ _ 6 (Ok (SRPassword px2))) in R5; [|reflexivity].
    assert (A4 : is_Some (d_users d4 !! u)) by (rewrite D4; cbn [d_users set_users]; rewrite lookup_insert_ne by congruence; exists a; exact Au).
    destruct (group_end k d4 w4 u g2 (joined a g2) (proj1 (proj2 R5)) A4 Ok3) as (w6 & H6 & W6).
    pose proof (at_runs k _ _ _ _ _ 5 _ _ _ _ R5 eq_refl H6 (rest_within k u g2 _) W6 (proj1 (proj2 (proj2 R5)))) as R6.
    apply (at_reply k _ _ _ _ _ 5 (Ok (SRGroup g2))) in R6; [|reflexivity].
    assert (Nt : ~ same_token tokx tok).
    { intros E. destruct Yx as (s1 & X1 & X2 & X3 & X4). apply Nux. refine (proj1 (proj1 (proj2 (proj2 R)) _ _ _ _ _ Y _)). exists s1. split; [exact X1|]. split; [eapply same_token_trans; eauto|]. split; [exact X3|exact X4]. }
    assert (St : same_token tok tok). { destruct Y as (s1 & _ & (t & _ & Et) & _). exists t. auto. }
    exists u, p, tok, g, x, px, tokx, g2, px2. do 2 eexists. cbn zeta. split; [exact D1Conc.mem_cells|]. split; [exact ov_clock|]. split; [|split; [exact (proj1 R6)|]].
    - split; [exact (proj1 (sa_w_fresh k))|exact (proj1 (proj2 (sa_w_fresh k)))].
    - split; [|split; [now apply calm_orderly|]; split; [apply ov_ids; pose proof (at_draws k _ _ _ _ _ R6); lia|]; split].
      + intros c Hc. cbn in Hc. destruct Hc as [<-|[<-|[<-|[<-|[<-|[<-|[<-|[]]]]]]]]; try exact Logic.I; exact all_lt.
      + intros tr1 c tr2 i bb E _ _ Hnm. apply before_calls_in in E. unfold calm_tr in E. cbn [before_calls map fst snd In] in E.
        destruct E as [E|[E|[E|[E|[E|[E|[E|[]]]]]]]]; injection E as <- <-; cbn [sa_names] in Hnm; try discriminate; injection Hnm as <-.
        * exists 0%nat. left. exists p. cbn. auto 20.
        * exists 3%nat. left. exists px. cbn. auto 20.
        * exists 3%nat. left. exists px. cbn. auto 20.
      + intros tr1 c tr2 tk E Htk _. apply before_calls_in in E. unfold calm_tr in E. cbn [before_calls map fst snd In] in E.
        destruct E as [E|[E|[E|[E|[E|[E|[E|[]]]]]]]]; injection E as <- <-; cbn [sa_token] in Htk; try discriminate; injection Htk as <-;
          exists u, tok, 1%nat, p, tok, (time_unix T1); (split; [reflexivity|]; split; [reflexivity|]; split; [cbn; auto 20|exact St]).
  Qed.
End Scenes.

Lemma lost_password k : exists u p p2 tok tok2 gid,
  let tr := lost_password_tr u p p2 tok tok2 gid in
  (exists pool' (w' : world (gmap bytes bytes) unit), sa_conc ov_env mem_view Mem k [] sa_w tr pool' w') /\ forall ds d', ~ sa_linearizes ov_env dir_empty tr ds d'.
Proof. destruct (lost_password_run k) as (u & p & p2 & tok & tok2 & gid & pool' & w' & H & N). exists u, p, p2, tok, tok2, gid. split; [eauto|]. intros ds d'. now apply lost_password_unordered. Qed.
Lemma lost_removal k : exists u p tok g1 g2 i,
  let tr := lost_removal_tr u p tok g1 g2 i in
  (exists pool' (w' : world (gmap bytes bytes) unit), sa_conc ov_env mem_view Mem k [] sa_w tr pool' w') /\ is_Some (i_groups i !! g1) /\ forall ds d', ~ sa_linearizes ov_env dir_empty tr ds d'.
Proof.
  destruct (lost_removal_run k) as (u & p & tok & g1 & g2 & i & pool' & w' & H & N & Hi & Hg). exists u, p, tok, g1, g2, i. split; [eauto|]. split; [exact Hg|].
  intros ds d'. now apply lost_removal_unordered.
Qed.
Lemma late_add k : exists u p tok g x px tokx i,
  let tr := late_add_tr u p tok g x px tokx i in
  (exists pool' (w' : world (gmap bytes bytes) unit), sa_conc ov_env mem_view Mem k [] sa_w tr pool' w') /\ i_groups i !! g = None /\ forall ds d', ~ sa_linearizes ov_env dir_empty tr ds d'.
Proof.
  destruct (late_add_run k) as (u & p & tok & g & x & px & tokx & i & pool' & w' & H & N1 & N2 & Hi & Hg). exists u, p, tok, g, x, px, tokx, i. split; [eauto|]. split; [exact Hg|].
  intros ds d'. now apply late_add_unordered.
Qed.
