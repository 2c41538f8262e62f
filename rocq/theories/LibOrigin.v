(** What C74 means for callers: whatever a call returns was put there by a call. *)
From Coq Require Import ZifyN ZifyNat.
From stdpp Require Import gmap.
From Verif Require Import Bytes Go Uuid UuidProofs Time Types World Id Data D1 Spec SpecProofs Standalone StandaloneSpec StandaloneHist SaConcSpec Index IndexSpec IndexHist Lib LibSpec LibCor
  LibConcSpec LibConcUseSpec LibConcUse LibReadSpec LibRead LibUserSpec LibUser LibOriginSpec.
Local Open Scope nat_scope.

Lemma came_weaken all (p q : lib_call -> lib_reply -> Prop) : (forall c r, p c r -> q c r) -> came_from all p -> came_from all q.
Proof. intros H (m & c & r & A & B & C). exists m, c, r. auto. Qed.

Section Origin.
  Context (e : env) (tr : list lib_obs) (hs : list half) (s : lib_state) (H : lib_acts e tr hs s).
  Notation from := (came_from tr).
  Lemma acted h c r (did : lib_call -> lib_reply -> Prop) : In h hs -> nth_error (lib_calls tr) (half_call h) = Some c -> half_reply h = Some r -> did c r -> from did.
  Proof.
    intros Hin Hc Hr Hd. exists (half_call h), c, r. split; [exact Hc|]. split; [exact Hd|]. intros r' Hr'. pose proof H as (_ & _ & _ & _ & HR & _).
    destruct (HR _ _ Hr') as (h1 & A & B & C). assert (E : h1 = h) by (apply (one_half e tr hs s H); [exact A|exact Hin|exact B|now rewrite (reply_acts _ _ C), (reply_acts _ _ Hr)]). congruence.
  Qed.

  (** ** Users, groups and sessions *)
  Definition user_from (uid : bytes) (a : account) : Prop :=
    (exists b, uid = uuid_text b) /\ from (makes_user uid (ac_scopes a)) /\ (exists pw, from (gives_password uid pw) /\ pwhash e pw (ac_salt a) = ac_hash a) /\
    forall g, g ∈ ac_groups a -> from (puts_in e tr uid g).
  Definition session_from (se : session) : Prop :=
    (exists b, se_uid se = uuid_text b) /\ (exists sc, from (makes_user (se_uid se) sc)) /\
    from (fun c r => exists pw x, c = OnIdentity (SLogin (se_uid se) pw) /\ r = LIdentity (Ok (SRToken (se_token se) x)) /\ own_password e tr (se_uid se) pw).
  Definition dir_from (d : directory) : Prop :=
    (forall uid a, d_users d !! uid = Some a -> user_from uid a) /\ (forall g sc, d_groups d !! g = Some sc -> from (makes_group g sc)) /\ (forall se, In se (d_sessions d) -> session_from se).

  Lemma says_from d tok uid exp : dir_from d -> says d tok uid exp -> (exists b, uid = uuid_text b) /\ (exists sc, from (makes_user uid sc)) /\ token_from e tr uid tok.
  Proof.
    intros (_ & _ & K) (se & Hin & Ht & <- & _). destruct (K _ Hin) as (A & B & C). split; [exact A|]. split; [exact B|].
    eapply came_weaken; [|exact C]. intros c r (pw & x & -> & -> & P). exists pw, (se_token se), x. auto.
  Qed.
  Lemma resolved_from d now tok q : dir_from d -> resolves d now tok q -> q <> Err EIdUserNotFound -> q <> Err EIdNotAuthenticated ->
    exists uid a, (exists exp, says d tok uid exp) /\ user_from uid a /\ token_from e tr uid tok /\ (forall i, q = Ok i -> describes d uid a i).
  Proof.
    intros K [(uid & exp & S1 & _ & X)|[_ ->]] N1 N2; [|now destruct N2]. destruct (d_users d !! uid) as [a|] eqn:Ea; [|now destruct N1]. exists uid, a. split; [eauto|]. split; [now apply K|].
    split; [eapply says_from; eauto|]. intros i ->. destruct X as [(j & D & [= <-])|(g & _ & _ & [=])]. exact D.
  Qed.

  Lemma dir_step x c d r d' : outside_ok e x -> (forall did : lib_call -> lib_reply -> Prop, did (OnIdentity c) (LIdentity r) -> from did) -> sa_step x c d r d' -> dir_from d -> dir_from d'.
  Proof.
    intros (_ & _ & _ & Hx) Act St K. pose proof K as (KU & KG & KS).
    assert (INS : forall uid a, user_from uid a -> dir_from (set_users d (<[uid := a]> (d_users d)))).
    { intros uid a Ka. split; [|split; [exact KG|exact KS]]. intros uid' a' E. cbn [d_users set_users] in E. apply lookup_insert_Some in E as [[<- <-]|[_ E]]; eauto. }
    assert (CA : forall tok (body : identity -> Prop), (forall i, resolves d (x_now x) tok (Ok i) -> body i -> dir_from d') -> as_caller x tok d r d' body -> dir_from d').
    { intros tok body Hb [(i & R & B)|(y & _ & _ & ->)]; [eauto|exact K]. }
    destruct c; cbn [sa_step] in St.
    - destruct St as [(_ & _ & ->)|(b & raw & salt & sc & _ & _ & _ & Hsc & St)]; [exact K|]. cbn zeta in St. destruct (d_users d !! _); destruct St as [Er ->]; [exact K|]. apply INS.
      split; [eauto|]. cbn [ac_scopes ac_salt ac_hash ac_groups]. split; [apply Act; rewrite Er; cbn; auto|]. split; [|intros g Hg; now apply elem_of_empty in Hg].
      eexists. split; [apply Act; rewrite Er; cbn; split; reflexivity|]. now rewrite Hx.
    - destruct (d_users d !! uid) as [a|] eqn:Ea; [|destruct St as [_ ->]; exact K]. destruct St as [(_ & _ & ->)|(Kn & [(_ & _ & ->)|(t & _ & Er & -> & _)])]; [exact K..|].
      split; [exact KU|]. split; [exact KG|]. intros se [<-|Hin]; [|now apply KS]. destruct (KU _ _ Ea) as (A & B & (pw0 & C1 & C2) & _). unfold session_from. cbn [se_uid se_token].
      split; [exact A|]. split; [eauto|]. apply Act. eexists _, _. split; [reflexivity|]. split; [now rewrite Er|]. exists pw0, (ac_salt a). split; [exact C1|]. unfold knows in Kn. rewrite Hx in Kn. congruence.
    - destruct (d_users d !! uid) as [a|] eqn:Ea; [|destruct St as [_ ->]; exact K]. destruct St as [(_ & _ & ->)|(_ & [(_ & _ & ->)|(raw & salt & _ & _ & Er & ->)])]; [exact K..|].
      apply INS. destruct (KU _ _ Ea) as (A & B & _ & D). split; [exact A|]. cbn [ac_scopes ac_salt ac_hash ac_groups]. split; [exact B|]. split; [|exact D].
      eexists. split; [apply Act; rewrite Er; cbn; split; reflexivity|]. now rewrite Hx.
    - apply (CA _ _) in St; [exact St|]. intros i _ [(_ & _ & ->)|(_ & X)]; [exact K|]. destruct (d_users d !! uid) as [a|] eqn:Ea; [|destruct X as [_ ->]; exact K].
      destruct X as [(_ & _ & ->)|(Er & ->)]; [exact K|]. apply INS. destruct (KU _ _ Ea) as (A & B & C & D). split; [exact A|]. cbn [ac_scopes ac_salt ac_hash ac_groups]. split; [exact B|]. split; [exact C|].
      intros g Hg. apply elem_of_union in Hg as [Hg|Hg]; [now apply D|]. apply elem_of_list_to_set, elem_of_list_In in Hg. apply Act. rewrite Er. cbn. auto.
    - apply (CA _ _) in St; [exact St|]. intros i _ [(_ & _ & ->)|(_ & X)]; [exact K|]. destruct (d_users d !! uid) as [a|] eqn:Ea; [|destruct X as [_ ->]; exact K].
      destruct X as [(_ & _ & ->)|(Er & ->)]; [exact K|]. apply INS. destruct (KU _ _ Ea) as (A & B & C & D). split; [exact A|]. cbn [ac_scopes ac_salt ac_hash ac_groups]. split; [exact B|]. split; [exact C|].
      intros g Hg. apply elem_of_difference in Hg as [Hg _]. now apply D.
    - apply (CA _ _) in St; [exact St|]. intros i _ [_ ->]. split; [|split; [exact KG|exact KS]]. intros u a E. cbn [d_users set_users] in E. apply lookup_delete_Some in E as [_ E]. auto.
    - assert (GI : forall g sc, r = Ok (SRGroup g) \/ r = Err ERandom -> all_of scopes sc -> forall g' sc', <[g := sc]> (d_groups d) !! g' = Some sc' -> from (makes_group g' sc')).
      { intros g sc Er Ha g' sc' E. apply lookup_insert_Some in E as [[<- <-]|[_ E]]; [|eauto]. apply Act. cbn. split; [|exact Ha]. destruct Er as [-> | ->]; auto. }
      apply (CA _ _) in St; [exact St|]. intros i R [(_ & _ & _ & ->)|[(_ & Er & _ & b & sc & _ & Hsc & _ & ->)|(b & sc & _ & Hsc & X)]]; [exact K| |].
      + split; [exact KU|]. split; [|exact KS]. cbn [d_groups set_groups]. eapply GI; [right; exact Er|exact Hsc].
      + cbn zeta in X. destruct (d_groups d !! uuid_text _); [destruct X as [_ ->]; exact K|]. destruct X as (a & Ea & Er & ->).
        split; [|split; [cbn [d_groups]; eapply GI; [left; exact Er|exact Hsc]|exact KS]]. intros u a' E. cbn [d_users] in E. apply lookup_insert_Some in E as [[<- <-]|[_ E]]; [|auto].
        destruct (KU _ _ Ea) as (A & B & C & D). split; [exact A|]. cbn [ac_scopes ac_salt ac_hash ac_groups]. split; [exact B|]. split; [exact C|].
        intros g Hg. apply elem_of_union in Hg as [Hg|Hg]; [now apply D|]. apply elem_of_singleton in Hg as ->. apply Act. rewrite Er. cbn. split; [reflexivity|].
        destruct (resolved_from _ _ _ _ K R) as (u & a1 & _ & _ & T & De); [discriminate..|]. destruct (De _ eq_refl) as (<- & _). exact T.
    - destruct St as (q & _ & _ & ->). exact K.
  Qed.

  (** ** Objects and the index *)
  Definition state_from (a : lib_state) : Prop :=
    dir_from (ls_dir a) /\
    (forall oid o acl, ls_objects a !! oid = Some (o, acl) -> from (stores oid o) /\ forall g, g ∈ acl -> from (puts_on e tr oid g)) /\
    (forall kw y, In y (ls_index a kw) -> from (puts_under kw y)).
  Lemma thinned_in x l l' y : thinned x l l' -> In y l' -> In y l.
  Proof. induction 1 as [|z l l' _ IH|l l' _ IH]; intros Hy; [exact Hy|destruct Hy as [->|Hy]; [now left|right; auto]|right; auto]. Qed.

  Lemma object_step x c m r m' : (forall did : lib_call -> lib_reply -> Prop, did (OnObject c) (LObject r) -> from did) ->
    (forall i tok, o_who x = Ok i -> call_token c = Some tok -> (exists b, i_id i = uuid_text b) /\ token_from e tr (i_id i) tok) -> spec_step x c m r m' ->
    (forall oid o acl, m !! oid = Some (o, acl) -> from (stores oid o) /\ forall g, g ∈ acl -> from (puts_on e tr oid g)) ->
    forall oid o acl, m' !! oid = Some (o, acl) -> from (stores oid o) /\ forall g, g ∈ acl -> from (puts_on e tr oid g).
  Proof.
    intros Act Who St K. destruct x as [who rf oi]. unfold spec_step, with_access, with_scope, or_random, refuse in St. cbn [o_who o_rng_fails o_id] in *.
    destruct c; cbn [call_token] in *; try (destruct St as [-> _]; exact K);
      (destruct who as [i|z|]; [|destruct St as [_ ->]; exact K..]); destruct St as [(_ & _ & ->)|(_ & St)]; try exact K.
    - destruct St as [(_ & _ & ->)|(oid & _ & St)]; [exact K|]. destruct (m !! oid) eqn:Eo; destruct St as [Er ->]; [exact K|]. intros oid' o acl E. apply lookup_insert_Some in E as [[<- [= <- <-]]|[_ E]]; [|eauto].
      destruct (Who i _ eq_refl eq_refl) as ((b & Eb) & T). split; [apply Act; rewrite Er; cbn; auto|]. intros g Hg. apply Act. rewrite Er. cbn [puts_on]. split; [reflexivity|].
      apply elem_of_union in Hg as [Hg|Hg]; [apply elem_of_singleton in Hg as ->|apply elem_of_list_to_set, elem_of_list_In in Hg; now left]. right. replace (as_text (i_id i)) with (i_id i); [exact T|]. rewrite Eb. symmetry. apply uuid_text_sanitize.
    - destruct (m !! oid) as [[o1 acl1]|] eqn:Eo; [|destruct St as [_ ->]; exact K]. destruct St as [(_ & _ & ->)|(_ & [(_ & _ & ->)|(Er & ->)])]; [exact K..|].
      intros oid' o acl E. apply lookup_insert_Some in E as [[<- [= <- <-]]|[_ E]]; [|eauto]. split; [apply Act; rewrite Er; cbn; auto|]. apply (K _ _ _ Eo).
    - destruct (m !! oid) as [[o acl]|]; [|destruct St as [_ ->]; exact K]. destruct St as [(_ & _ & ->)|(_ & _ & ->)]; exact K.
    - destruct (m !! oid) as [[o1 acl1]|]; [|destruct St as [_ ->]; exact K]. destruct St as [(_ & _ & ->)|(_ & _ & ->)]; [exact K|]. intros oid' o acl E. apply lookup_delete_Some in E as [_ E]. eauto.
    - destruct (m !! oid) as [[o acl]|]; [|destruct St as [_ ->]; exact K]. destruct St as [(_ & _ & ->)|(_ & _ & ->)]; exact K.
    - destruct (m !! oid) as [[o1 acl1]|] eqn:Eo; [|destruct St as [_ ->]; exact K]. destruct St as [(_ & _ & ->)|(_ & [(_ & _ & ->)|(Er & ->)])]; [exact K..|].
      intros oid' o acl E. apply lookup_insert_Some in E as [[<- [= <- <-]]|[_ E]]; [|eauto]. destruct (K _ _ _ Eo) as [A B]. split; [exact A|]. intros g Hg. apply elem_of_union in Hg as [Hg|Hg]; [now apply B|].
      apply elem_of_list_to_set, elem_of_list_In in Hg. apply Act. rewrite Er. cbn. auto.
    - destruct (m !! oid) as [[o1 acl1]|] eqn:Eo; [|destruct St as [_ ->]; exact K]. destruct St as [(_ & _ & ->)|(_ & [(_ & _ & ->)|(Er & ->)])]; [exact K..|].
      intros oid' o acl E. apply lookup_insert_Some in E as [[<- [= <- <-]]|[_ E]]; [|eauto]. destruct (K _ _ _ Eo) as [A B]. split; [exact A|]. intros g Hg. apply elem_of_difference in Hg as [Hg _]. now apply B.
    - destruct (m !! oid) as [[o acl]|]; [|destruct St as [_ ->]; exact K]. destruct St as [(_ & _ & ->)|(_ & _ & ->)]; exact K.
  Qed.
  Lemma index_step x c m r m' : (forall did : lib_call -> lib_reply -> Prop, did (OnIndex c) (LIndex r) -> from did) -> ix_step x c m r m' ->
    (forall kw y, In y (m kw) -> from (puts_under kw y)) -> forall kw y, In y (m' kw) -> from (puts_under kw y).
  Proof.
    intros Act St K kw y Hy. assert (SAME : same m m' -> from (puts_under kw y)) by (intros E; rewrite (E kw) in Hy; auto). unfold ix_step, ix_allowed in St.
    assert (BE : forall kw0 l, becomes kw0 l m m' -> (In y l -> from (puts_under kw0 y)) -> from (puts_under kw y)).
    { intros kw0 l [E1 E2] B. destruct (decide (kw = kw0)) as [->|N]; [rewrite E1 in Hy; auto|]. rewrite (E2 _ N) in Hy. auto. }
    destruct (ix_who x) as [i|z|]; [|apply SAME, St..]. destruct St as [(_ & _ & E)|(_ & St)]; [now apply SAME|]. destruct c as [tk kw0 y0|tk kw0|tk kw0 y0].
    - destruct St as [(_ & _ & E)|(Er & E)]; [now apply SAME|]. apply (BE _ _ E). intros Hin. apply in_app_iff in Hin as [Hin|[Hin|[]]]; [now apply K|]. apply Act. rewrite Er. cbn. auto.
    - destruct St as [_ E]. now apply SAME.
    - destruct St as [(_ & _ & l & T & E)|(_ & E)]; apply (BE _ _ E); intros Hin; apply K; [eapply thinned_in; eauto|]. unfold without in Hin. apply filter_In in Hin. apply Hin.
  Qed.

  Lemma all_dirs pre post a : hs = pre ++ post -> half_history lib_empty pre a -> dir_from (ls_dir a).
  Proof.
    intros E HH. refine (hh_inv (fun a => dir_from (ls_dir a)) _ _ _ HH _ _).
    - split; [|split]; cbn [ls_dir lib_empty dir_empty d_users d_groups d_sessions]; [intros u z Hz; now rewrite lookup_empty in Hz..|intros se []].
    - intros h a0 b0 Hin Hs K. assert (Hi : In h hs) by (rewrite E; apply in_app_iff; now left). pose proof H as (_ & _ & HO & _). specialize (HO _ Hi).
      destruct (half_dir_step _ _ _ Hs) as [(k & ev & -> & St)|Ed]; [|rewrite Ed; exact K]. destruct HO as [HO Hx]. eapply dir_step; [exact Hx| |exact St|exact K].
      intros did Hd. eapply acted; [exact Hi|exact HO|reflexivity|exact Hd].
  Qed.
  Lemma looked_up m x tok q : In (HLookup m x tok q) hs -> exists h a b post, half_step h a b /\ half_history b post s /\ dir_from (ls_dir a) /\ resolves (ls_dir a) (x_now x) tok q.
  Proof.
    intros Hin. apply in_split in Hin as (p1 & p2 & E). pose proof H as (HH & _). rewrite E in HH. apply hh_mid in HH as (a & b & H1 & Hs & H2). exists (HLookup m x tok q), a, b, p2. split; [exact Hs|]. split; [exact H2|]. split; [|apply Hs]. eapply all_dirs; eauto.
  Qed.
  Lemma all_states pre post a : hs = pre ++ post -> half_history lib_empty pre a -> state_from a.
  Proof.
    intros E HH. split; [eapply all_dirs; eauto|]. refine (hh_inv (fun a => (forall oid o acl, ls_objects a !! oid = Some (o, acl) -> from (stores oid o) /\ forall g, g ∈ acl -> from (puts_on e tr oid g)) /\
      (forall kw y, In y (ls_index a kw) -> from (puts_under kw y))) _ _ _ HH _ _).
    - split; [cbn [ls_objects lib_empty]; intros oid o acl Hz; now rewrite lookup_empty in Hz|intros kw y []].
    - intros h a0 b0 Hin Hs K. assert (Hi : In h hs) by (rewrite E; apply in_app_iff; now left). pose proof H as (_ & _ & HO & HW & _). specialize (HO _ Hi).
      destruct h as [k ev|k x0 t0 w0|k ev|k ev]; cbn [half_step half_of] in Hs, HO; [destruct Hs as (_ & -> & ->); exact K|destruct Hs as (_ & ->); exact K|destruct Hs as (Hs & _ & ->)|destruct Hs as (Hs & _ & ->)];
        destruct HO as [HO _]; (split; [|try apply K]); try apply K.
      + eapply object_step; [|intros i tok Ew Et|exact Hs|apply K]; [intros did Hd; eapply acted; [exact Hi|exact HO|reflexivity|exact Hd]|].
        apply in_split in Hi as (p1 & p2 & E'). destruct (HW _ _ _ tok (Ok i) E') as (x & Hx); [cbn [half_who]; now rewrite Et, Ew|].
        destruct (looked_up k x tok (Ok i)) as (q1 & d & d2 & q2 & _ & _ & Kd & R); [rewrite E'; apply in_app_iff; left; exact Hx|].
        destruct (resolved_from _ _ _ _ Kd R) as (u & a1 & _ & (Ub & _) & T & De); [discriminate..|]. destruct (De _ eq_refl) as (-> & _). auto.
      + eapply index_step; [|exact Hs|apply K]. intros did Hd. eapply acted; [exact Hi|exact HO|reflexivity|exact Hd].
  Qed.
  (** A token that LoginUser has given to somebody stands for nobody else. *)
  Lemma id_half h n c r : In h hs -> half_call h = n -> half_reply h = Some (LIdentity r) -> nth_error (lib_calls tr) n = Some (OnIdentity c) -> exists x, h = HIdentity n (mkSaEvent x c r).
  Proof.
    intros Hin <- Hr Hn. pose proof H as (_ & _ & HO & _). specialize (HO _ Hin). destruct h as [n [x c1 r1]|n x t w|n ev|n ev]; cbn in *; try discriminate. destruct HO as [HO _]. injection Hr as ->. exists x. f_equal. f_equal. congruence.
  Qed.
  Lemma says_last h a b post tok uid exp : half_step h a b -> half_history b post s -> says (ls_dir a) tok uid exp -> says (ls_dir s) tok uid exp.
  Proof.
    intros Hs H2 Sa. eapply says_history; [apply half_dir, H2|]. destruct (half_dir_step _ _ _ Hs) as [(k & ev & _ & St)|Ed]; [eapply says_step; eauto|now rewrite Ed].
  Qed.
  Lemma only_user tok uid exp uid' : says (ls_dir s) tok uid exp -> logged_in uid' tok tr -> uid' = uid.
  Proof.
    intros Sa (n & pw & t & y & A & B & Sm). pose proof H as (HH & _ & _ & _ & HR & _). destruct (HR _ _ B) as (h & Ih & C & D). destruct (id_half _ _ _ _ Ih C D A) as (x & ->).
    apply in_split in Ih as (p & q & E). pose proof HH as HH'. rewrite E in HH'. apply hh_mid in HH' as (a & b & _ & (St & _) & H2). cbn [sv_x sv_call sv_reply] in St.
    assert (K : exists xp, says (ls_dir b) t uid' xp).
    { cbn [sa_step] in St. destruct (d_users (ls_dir a) !! uid'); [|destruct St as [[=] _]]. destruct St as [(_ & [=] & _)|(_ & [(_ & [=] & _)|(t' & _ & [= <- _] & _ & K)])]. eexists. apply K. eauto. }
    destruct K as (xp & K). eapply says_history in K; [|apply half_dir, H2]. apply (half_unique _ _ HH tok _ _ _ _ (says_same _ _ _ _ _ K Sm) Sa).
  Qed.
End Origin.

Section Cor.
  Context (e : env) (tra trb : list lib_obs) (c : lib_call) (r : lib_reply).
  Notation tr := (tra ++ LCall c :: trb).
  Notation n := (length (lib_calls tra)).
  Context (acts : exists hs s, lib_acts e tr hs s) (Hr : In (LReply n r) trb).

  (** An object call that is answered acts in a state in which everything comes from calls. *)
  Lemma object_acts c0 r0 : c = OnObject c0 -> r = LObject r0 -> exists x a b, state_from e tr a /\ spec_step x c0 (ls_objects a) r0 b.
  Proof.
    intros -> ->. destruct acts as (hs & s & H). pose proof H as (HH & _ & HO & _ & HR & _). destruct (HR n _ ltac:(apply in_app_iff; right; right; exact Hr)) as (h & Hin & A & B).
    specialize (HO _ Hin). apply in_split in Hin as (p1 & p2 & E). pose proof HH as HH'. rewrite E in HH'. apply hh_mid in HH' as (a & b & H1 & Hs & _).
    pose proof (its_call tra trb (OnObject c0)) as Hn. destruct h as [m ev|m x t w|m ev|m ev]; cbn [half_call half_of half_reply half_step] in *; try discriminate; subst m; destruct HO as [HO _];
      rewrite Hn in HO; injection HO as HO; injection B as B. destruct Hs as [Hs _]. rewrite <- HO, B in Hs. exists (ev_outside ev), a, (ls_objects b). split; [eapply all_states; eauto|exact Hs].
  Qed.
  Lemma decrypt_from tok oid o : c = OnObject (CDecrypt tok oid) -> r = LObject (Ok (RObject o)) -> came_from tr (stores oid o).
  Proof.
    intros Ec Er. destruct (object_acts _ _ Ec Er) as (x & a & b & (_ & K & _) & St). unfold spec_step, with_access, with_scope, refuse in St. destruct (o_who x); [|destruct St as [[=] _]..].
    destruct St as [(_ & [=] & _)|(_ & St)]. destruct (ls_objects a !! oid) as [[o1 acl]|] eqn:Eo; [|destruct St as [[=] _]]. destruct St as [(_ & [=] & _)|(_ & [= <-] & _)]. apply (K _ _ _ Eo).
  Qed.
  Lemma list_from tok oid acl g : c = OnObject (CGetAccessGroups tok oid) -> r = LObject (Ok (RGroups (Some acl))) -> g ∈ acl -> came_from tr (puts_on e tr oid g).
  Proof.
    intros Ec Er Hg. destruct (object_acts _ _ Ec Er) as (x & a & b & (_ & K & _) & St). unfold spec_step, with_access, with_scope, refuse in St. destruct (o_who x); [|destruct St as [[=] _]..].
    destruct St as [(_ & [=] & _)|(_ & St)]. destruct (ls_objects a !! oid) as [[o1 acl1]|] eqn:Eo; [|destruct St as [[=] _]]. destruct St as [(_ & [=] & _)|(_ & [= <-] & _)]. now apply (K _ _ _ Eo).
  Qed.
  Lemma search_from tok kw l y : c = OnIndex (ISearch tok kw) -> r = LIndex (Ok (IRIds l)) -> In y l -> came_from tr (puts_under kw y).
  Proof.
    intros Ec Er Hy. destruct acts as (hs & s & H). destruct (call_looks_up e tra trb c r acts Hr hs s tok H ltac:(rewrite Ec; reflexivity)) as (h & pre & post & E & A & B & C).
    destruct h as [m ev|m x t w|m ev|m ev]; cbn [half_reply] in B; [destruct C as (_ & c1 & C); congruence|contradiction|destruct C; congruence|]. destruct C as (C & _).
    assert (Eev : iv_call ev = ISearch tok kw) by congruence. rewrite Er in B. injection B as B. pose proof H as (HH & _). rewrite E in HH. apply hh_mid in HH as (a & b & H1 & (St & _) & _). rewrite Eev, B in St.
    unfold ix_step, ix_allowed in St. destruct (ix_who (iv_x ev)); [|destruct St as [[=] _]..]. destruct St as [(_ & [=] & _)|(_ & [= ->] & _)]. eapply all_states; eauto.
  Qed.
  Lemma identity_from tok i : c = OnIdentity (SGetIdentity tok) -> r = LIdentity (Ok (SRIdentity i)) ->
    token_from e tr (i_id i) tok /\ (forall uid, logged_in uid tok tr -> uid = i_id i) /\ came_from tr (makes_user (i_id i) (i_scopes i)) /\
    forall g sc, i_groups i !! g = Some sc -> came_from tr (puts_in e tr (i_id i) g) /\ came_from tr (makes_group g sc).
  Proof.
    intros Ec Er. destruct acts as (hs & s & H). destruct (call_looks_up e tra trb c r acts Hr hs s tok H ltac:(rewrite Ec; reflexivity)) as (h & pre & post & E & A & B & C).
    destruct h as [m ev|m x t w|m ev|m ev]; cbn [half_reply] in B; [|contradiction|destruct C; congruence..]. destruct C as (C & _). rewrite Ec in C. rewrite Er in B. injection B as B.
    pose proof H as (HH & _). rewrite E in HH. apply hh_mid in HH as (a & b & H1 & Hs & H2). pose proof Hs as (St & _). rewrite C, B in St. cbn [sa_step] in St. destruct St as (q & R & Q & _). destruct q; try discriminate. injection Q as <-.
    pose proof (all_dirs e tr hs s H pre _ a E H1) as K. destruct (resolved_from e tr _ _ _ _ K R) as (u & a1 & (exp & Sa) & (_ & U2 & _ & U4) & T & De); [discriminate..|]. destruct (De _ eq_refl) as (-> & -> & _ & G).
    split; [exact T|]. split; [intros uid Hl; eapply (only_user e tr hs s H); [eapply says_last; eauto|exact Hl]|]. split; [exact U2|]. intros g sc Hg. apply G in Hg as [Hg1 Hg2]. split; [now apply U4|]. now apply K.
  Qed.
  Lemma caller_from tok : lib_token c = Some tok -> ~ turned_away r -> exists uid, token_from e tr uid tok /\ (forall uid', logged_in uid' tok tr -> uid' = uid) /\ exists sc, came_from tr (makes_user uid sc).
  Proof.
    intros Ht Hn. destruct acts as (hs & s & H). destruct (call_looks_up e tra trb c r acts Hr hs s tok H Ht) as (h & pre & post & E & A & B & C).
    assert (FIN : forall h a b post now q, half_step h a b -> half_history b post s -> dir_from e tr (ls_dir a) -> resolves (ls_dir a) now tok q -> q <> Err EIdUserNotFound -> q <> Err EIdNotAuthenticated -> exists uid, token_from e tr uid tok /\ (forall uid', logged_in uid' tok tr -> uid' = uid) /\ exists sc, came_from tr (makes_user uid sc)).
    { intros h0 a b post0 now q S0 S1 K R N1 N2. destruct (resolved_from e tr _ _ _ _ K R N1 N2) as (u & a1 & (exp & Sa) & (_ & U2 & _) & T & _). exists u. split; [exact T|]. split; [|eauto]. intros uid' Hl. eapply (only_user e tr hs s H); [eapply says_last; eauto|exact Hl]. }
    assert (HL : forall p1 x q p2, pre = p1 ++ HLookup n x tok q :: p2 -> (exists y, q = Err y) \/ exists uid, token_from e tr uid tok /\ (forall uid', logged_in uid' tok tr -> uid' = uid) /\ exists sc, came_from tr (makes_user uid sc)).
    { intros p1 x q p2 E0. pose proof (no_panic e tra trb c hs s pre h post x tok q p1 p2 H E E0) as NP. destruct q as [i|y|]; [right|left; eauto|destruct (NP eq_refl)].
      destruct (looked_up e tr hs s H n x tok (Ok i)) as (h0 & a & b & post0 & S0 & S1 & K & R); [rewrite E, E0; apply in_app_iff; left; apply in_app_iff; right; now left|]. eapply FIN; eauto; discriminate. }
    pose proof H as (HH & _). rewrite E in HH. apply hh_mid in HH as (a & b & H1 & Hs & H2). pose proof (all_dirs e tr hs s H pre _ a E H1) as K. pose proof (fun now q => FIN h a b post now q Hs H2 K) as FIN1.
    destruct h as [m ev|m x t w|m ev|m ev]; cbn [half_reply half_step] in *; [|contradiction| |]; injection B as <-; cbn [turned_away] in Hn.
    - destruct C as (C & c0 & Ec). rewrite Ec in C, Ht. destruct Hs as (Hs & _). rewrite C in Hs.
      assert (CA : forall d' body, as_caller (sv_x ev) tok (ls_dir a) (sv_reply ev) d' body -> exists uid, token_from e tr uid tok /\ (forall uid', logged_in uid' tok tr -> uid' = uid) /\ exists sc, came_from tr (makes_user uid sc)).
      { intros d' body [(i & X & _)|(y & X & Ey & _)]; [eapply FIN1; [exact X|discriminate..]|]. eapply FIN1; [exact X|..]; intros [= ->]; apply Hn; auto. }
      destruct c0; try discriminate; injection Ht as ->; cbn [sa_step] in Hs; unfold change_membership in Hs; try (eapply CA, Hs).
      destruct Hs as (q & X & Q & _). eapply FIN1; [exact X|..]; intros ->; apply Hn; rewrite Q; cbn; auto.
    - destruct C as (Ec & x & p1 & p2 & E0). rewrite Ec in Ht. destruct (HL _ _ _ _ E0) as [(y & Ey)|D]; [|exact D]. exfalso. apply Hn. destruct Hs as (Hs & _). unfold spec_step, with_access, with_scope, refuse in Hs. rewrite Ey in Hs.
      cbn [lib_token] in Ht. destruct (ev_call ev); cbn [call_token] in Ht; try discriminate; apply Hs.
    - destruct C as (Ec & x & p1 & p2 & E0). rewrite Ec in Ht. destruct (HL _ _ _ _ E0) as [(y & Ey)|D]; [|exact D]. exfalso. apply Hn. destruct Hs as (Hs & _). unfold ix_step, ix_allowed in Hs. rewrite Ey in Hs. apply Hs.
  Qed.
End Cor.
