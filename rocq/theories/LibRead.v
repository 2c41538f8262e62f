(** What C74 means for callers: Decrypt and Search answer with what had been stored when they were called. *)
From Coq Require Import ZifyN ZifyNat.
From stdpp Require Import gmap.
From Verif Require Import Bytes Go Uuid Time Types World Id Data D1 Spec SpecProofs Standalone StandaloneSpec StandaloneHist Index IndexSpec IndexHist IndexOwnSpec Lib LibSpec LibCor LibConcSpec LibConcUseSpec LibConcUse LibReadSpec.
Local Open Scope nat_scope.

(** ** Steps *)
Lemma step_object x c m r m' oid o acl : spec_step x c m r m' -> m !! oid = Some (o, acl) -> (replaces oid (OnObject c) -> failed (LObject r)) ->
  exists acl', m' !! oid = Some (o, acl').
Proof.
  intros H Hm Hk. destruct (decide (call_oid c = Some oid)) as [Eo|Eo]; [|exists acl; eapply step_other; eauto].
  assert (RO : only_reads c \/ ~ only_reads c) by (destruct c; cbn; tauto). destruct RO as [RO|RO]; [rewrite (step_reads _ _ _ _ _ H RO); eauto|].
  destruct x as [who rf oi]. unfold spec_step, with_access, with_scope, or_random, refuse in H. cbn [o_who o_rng_fails o_id] in H.
  destruct c; cbn [call_oid only_reads replaces failed] in *; try discriminate; try (destruct (RO Logic.I)); injection Eo as ->; rewrite Hm in H;
    (destruct who as [i|z|]; [|destruct H as [_ ->]; eauto..]); destruct H as [(_ & _ & ->)|(_ & [(_ & _ & ->)|(_ & H)])]; eauto.
  - destruct H as [(_ & _ & ->)|(-> & ->)]; [eauto|]. destruct (Hk eq_refl).
  - destruct H as (-> & _). destruct (Hk eq_refl).
  - destruct H as [(_ & _ & ->)|(_ & ->)]; [eauto|]. rewrite lookup_insert. eauto.
  - destruct H as [(_ & _ & ->)|(_ & ->)]; [eauto|]. rewrite lookup_insert. eauto.
Qed.
Lemma step_missing x c m r m' oid : spec_step x c m r m' -> m !! oid = None -> (is_encrypt (OnObject c) -> not_oid oid (LObject r)) -> m' !! oid = None.
Proof.
  intros H Hm Hk. destruct x as [who rf oi]. unfold spec_step, with_access, with_scope, or_random, refuse in H. cbn [o_who o_rng_fails o_id] in H.
  destruct c; cbn [is_encrypt] in *; try (destruct H as [-> _]; exact Hm);
    (destruct who as [i|z|]; [|destruct H as [_ ->]; exact Hm..]); destruct H as [(_ & _ & ->)|(_ & H)]; try exact Hm.
  - destruct H as [(_ & _ & ->)|(o & _ & H)]; [exact Hm|]. destruct (m !! o) eqn:Eo; destruct H as [E ->]; [exact Hm|].
    rewrite lookup_insert_ne; [exact Hm|]. intros ->. apply (Hk Logic.I). now rewrite E.
  - destruct (m !! oid0) as [[o acl]|] eqn:E0; [|destruct H as [_ ->]; exact Hm]. destruct H as [(_ & _ & ->)|(_ & [(_ & _ & ->)|(_ & ->)])]; [exact Hm..|].
    rewrite lookup_insert_ne; [exact Hm|]. congruence.
  - destruct (m !! oid0) as [[o acl]|]; [|destruct H as [_ ->]; exact Hm]. destruct H as [(_ & _ & ->)|(_ & _ & ->)]; exact Hm.
  - destruct (m !! oid0) as [[o acl]|]; [|destruct H as [_ ->]; exact Hm]. destruct H as [(_ & _ & ->)|(_ & _ & ->)]; [exact Hm|].
    apply lookup_delete_None. now right.
  - destruct (m !! oid0) as [[o acl]|]; [|destruct H as [_ ->]; exact Hm]. destruct H as [(_ & _ & ->)|(_ & _ & ->)]; exact Hm.
  - destruct (m !! oid0) as [[o acl]|] eqn:E0; [|destruct H as [_ ->]; exact Hm]. destruct H as [(_ & _ & ->)|(_ & [(_ & _ & ->)|(_ & ->)])]; [exact Hm..|].
    rewrite lookup_insert_ne; [exact Hm|]. congruence.
  - destruct (m !! oid0) as [[o acl]|] eqn:E0; [|destruct H as [_ ->]; exact Hm]. destruct H as [(_ & _ & ->)|(_ & [(_ & _ & ->)|(_ & ->)])]; [exact Hm..|].
    rewrite lookup_insert_ne; [exact Hm|]. congruence.
  - destruct (m !! oid0) as [[o acl]|]; [|destruct H as [_ ->]; exact Hm]. destruct H as [(_ & _ & ->)|(_ & _ & ->)]; exact Hm.
Qed.

(** ** Where calls are in the order *)
Lemma split_call tr : forall n c, nth_error (lib_calls tr) n = Some c -> exists tr1 tr2, tr = tr1 ++ LCall c :: tr2 /\ length (lib_calls tr1) = n.
Proof.
  induction tr as [|[x|k q] tr IH]; intros n c H; cbn [lib_calls] in H; [destruct n; discriminate| |].
  - destruct n as [|n]; cbn [nth_error] in H; [injection H as ->; exists [], tr; auto|]. destruct (IH _ _ H) as (tr1 & tr2 & -> & E). exists (LCall x :: tr1), tr2. cbn. auto.
  - destruct (IH _ _ H) as (tr1 & tr2 & -> & E). exists (LReply k q :: tr1), tr2. cbn. auto.
Qed.
Lemma calls_app a b : lib_calls (a ++ b) = lib_calls a ++ lib_calls b.
Proof. induction a as [|[x|k q] a IH]; cbn [app lib_calls]; [reflexivity|now rewrite IH|exact IH]. Qed.
Lemma nth_call_prefix a b n c : nth_error (lib_calls (a ++ b)) n = Some c -> n < length (lib_calls a) -> nth_error (lib_calls a) n = Some c.
Proof. intros H L. rewrite calls_app, nth_error_app1 in H by exact L. exact H. Qed.

Section Acts.
  Context (e : env) (tr : list lib_obs) (hs : list half) (s : lib_state) (H : lib_acts e tr hs s).
  Lemma half_twice pre post h h' : hs = pre ++ post -> In h pre -> In h' post -> half_call h = half_call h' -> is_lookup h = is_lookup h' -> False.
  Proof.
    intros E H1 H2 E1 E2. destruct H as (_ & ND & _). rewrite E in ND. apply (nodup_split (fun h => (half_call h, is_lookup h)) pre post h h' ND H1 H2). now rewrite E1, E2.
  Qed.
  (** A call that was answered before another was made acts before it. *)
  Lemma acts_first c n' tr1 tr2 : tr = tr1 ++ LCall c :: tr2 -> (exists r, In (LReply n' r) tr1) -> forall pre h post, hs = pre ++ h :: post -> half_call h = length (lib_calls tr1) ->
    forall h', In h' (h :: post) -> half_call h' = n' -> is_lookup h' = false -> False.
  Proof.
    intros E (r & Hr) pre h post Eh Hc h' Hin Hn Hl. destruct (comes_before e tr hs s H tr1 _ E n' r Hr pre h post Eh ltac:(lia)) as (h1 & A & B & C).
    apply (half_twice pre (h :: post) h1 h' Eh A Hin); [congruence|]. now rewrite Hl, (reply_acts _ _ C).
  Qed.
  (** Of two calls at odds, the one made earlier acts first. *)
  Context (ord : lib_orderly tr).
  Lemma odds_in_order pre h1 mid h2 post c1 c2 : hs = pre ++ h1 :: mid ++ h2 :: post -> is_lookup h1 = false -> is_lookup h2 = false ->
    nth_error (lib_calls tr) (half_call h1) = Some c1 -> nth_error (lib_calls tr) (half_call h2) = Some c2 -> lib_odds c2 c1 -> half_call h1 < half_call h2.
  Proof.
    intros E L1 L2 N1 N2 O. destruct (Nat.lt_trichotomy (half_call h1) (half_call h2)) as [K|[K|K]]; [exact K|exfalso|exfalso].
    - apply (half_twice (pre ++ [h1]) (mid ++ h2 :: post) h1 h2); [rewrite <- app_assoc; exact E|apply in_app_iff; right; now left|apply in_app_iff; right; now left|exact K|congruence].
    - destruct (split_call _ _ _ N1) as (tr1 & tr2 & Et & En). pose proof N2 as N2'. rewrite Et in N2'. apply nth_call_prefix in N2'; [|lia].
      destruct (proj2 ord tr1 c1 tr2 Et _ _ N2' O) as (r & Hr).
      refine (acts_first c1 (half_call h2) tr1 tr2 Et (ex_intro _ r Hr) pre h1 (mid ++ h2 :: post) E (eq_sym En) h2 _ eq_refl L2). right. apply in_app_iff. right. now left.
  Qed.
End Acts.

Section Cor.
  Context (e : env) (tra trb : list lib_obs) (c : lib_call) (r : lib_reply).
  Notation tr := (tra ++ LCall c :: trb).
  Notation n := (length (lib_calls tra)).
  Context (acts : exists hs s, lib_acts e tr hs s) (Hr : In (LReply n r) trb).
  (** Who the token stands for is never a panic. *)
  Lemma no_panic hs s pre h post x tok q p1 p2 : lib_acts e tr hs s -> hs = pre ++ h :: post -> pre = p1 ++ HLookup n x tok q :: p2 -> q <> Panic.
  Proof.
    intros H E E0 Eq. subst q. pose proof H as (HH & _). rewrite E, E0, <- app_assoc in HH. cbn [app] in HH. apply hh_mid in HH as (a & b & H1 & (Hs & _) & _).
    destruct Hs as [(u & y & _ & _ & X)|[_ [=]]]. destruct (d_users _ !! u); [destruct X as [(j & _ & [=])|(g & _ & _ & [=])]|discriminate].
  Qed.
  Lemma not_this hs s pre h post h0 n0 : lib_acts e tr hs s -> hs = pre ++ h :: post -> half_call h = n0 -> is_lookup h = false -> In h0 pre -> is_lookup h0 = false -> half_call h0 <> n0.
  Proof. intros H E E1 L1 Hin L0 E2. apply (half_twice e tr hs s H pre (h :: post) h0 h E Hin (or_introl eq_refl)); congruence. Qed.

  Lemma decrypt_reads tok oid o r0 : c = OnObject (CDecrypt tok oid) -> r = LObject r0 -> object_stored oid o tr tra ->
    r0 = Ok (RObject o) \/ r0 = Err ED1NotAuthenticated \/ r0 = Err ED1NotAuthorized.
  Proof.
    intros Ec Er (tr0 & c0 & q0 & Ha & Hst & Hm). pose proof acts as (hs & s & H).
    destruct (call_looks_up e tra trb c r acts Hr hs s tok H ltac:(rewrite Ec; reflexivity)) as (h & pre & post & E & A & B & C).
    destruct h as [m ev|m x t w|m ev|m ev]; cbn [half_reply] in B; [destruct C as (_ & c1 & C); congruence|contradiction| |destruct C; congruence].
    destruct C as (C & x & p1 & p2 & E0). assert (Eev : ev_call ev = CDecrypt tok oid) by congruence. rewrite Er in B. injection B as B. clear C.
    pose proof (no_panic hs s pre _ post x tok _ p1 p2 H E E0) as NP.
    pose proof H as (HH & ND & HO & _ & HR & _). pose proof HH as HH'. rewrite E in HH. apply hh_mid in HH as (a & b & H1 & (St & _) & _). rewrite Eev, B in St.
    assert (Ob : exists acl, ls_objects a !! oid = Some (o, acl)).
    { destruct (came_before e tr hs s H _ _ _ _ _ _ Ha eq_refl pre _ post E A) as (q1 & h' & mid & Ep & A' & B' & C' & D').
      rewrite Ep in H1. apply hh_mid in H1 as (a1 & b1 & _ & Hs & H2).
      assert (Hin' : In h' hs) by (rewrite E, Ep; apply in_app_iff; left; apply in_app_iff; right; now left). specialize (HO _ Hin') as Ho'.
      assert (H0 : exists acl, ls_objects b1 !! oid = Some (o, acl)).
      { destruct h' as [k ev'|k x' t' w'|k ev'|k ev']; cbn [half_reply] in B'; try discriminate; injection B' as B'; subst q0; cbn [half_of half_call] in Ho', C'; destruct Ho' as [Ho' _];
          rewrite C' in Ho'; injection Ho' as ->; cbn [stores] in Hst; try contradiction.
        cbn [half_step] in Hs. destruct Hs as [Hs _]. destruct ev' as [[who rf oi] c' r']. cbn [ev_outside ev_call ev_reply] in *.
        unfold spec_step, with_access, with_scope, or_random, refuse in Hs. cbn [o_who o_rng_fails o_id] in Hs.
        destruct c' as [tk ob gs|tk od ob| | | | | | | |]; try contradiction; destruct r' as [[]|?|]; try contradiction; destruct Hst as [-> ->];
          (destruct who as [i|z|]; [|destruct Hs as [[=] _]..]); destruct Hs as [(_ & [=] & _)|(_ & Hs)].
        - destruct Hs as [(_ & [=] & _)|(o' & _ & Hs)]. destruct (ls_objects a1 !! o'); destruct Hs as [Hs Hb]; [discriminate|]. injection Hs as <-. rewrite Hb, lookup_insert. eauto.
        - destruct (ls_objects a1 !! oid) as [[o' acl]|]; [|destruct Hs as [[=] _]]. destruct Hs as [(_ & [=] & _)|(_ & [(_ & [=] & _)|(_ & ->)])]. rewrite lookup_insert. eauto. }
      apply (hh_inv (fun s => exists acl, ls_objects s !! oid = Some (o, acl)) _ _ _ H2 H0). intros h0 a0 b0 Hin Hst0 (acl & Hob).
      destruct h0 as [k ev0|k x0 t0 w0|k ev0|k ev0]; cbn [half_step] in Hst0; [destruct Hst0 as (_ & -> & _); eauto|destruct Hst0 as (_ & ->); eauto| |destruct Hst0 as (_ & _ & ->); eauto].
      destruct Hst0 as (Hst0 & _). eapply step_object; [exact Hst0|exact Hob|]. intros Hk.
      assert (Hin0 : In (HObject k ev0) hs) by (rewrite E, Ep; apply in_app_iff; left; apply in_app_iff; right; now right). destruct (HO _ Hin0) as [Hk0 _].
      assert (Eh : hs = q1 ++ h' :: (mid ++ HObject m ev :: post)) by (rewrite E, Ep, <- app_assoc; reflexivity).
      assert (Nk : k <> length (lib_calls tr0)).
      { intros ->. apply (half_twice e tr hs s H (q1 ++ [h']) (mid ++ HObject m ev :: post) h' (HObject (length (lib_calls tr0)) ev0)); [rewrite Eh, <- app_assoc; reflexivity|apply in_app_iff; right; now left|apply in_app_iff; now left|exact A'|].
        now rewrite (reply_acts _ _ B'). }
      destruct (Hm k _ Hk0 Nk Hk) as (r' & [Hr'|[Hr' Hf]]).
      - exfalso. destruct (D' k r' Hr') as (h1 & X & Y & Z). apply (half_twice e tr hs s H q1 (h' :: mid ++ HObject m ev :: post) h1 (HObject k ev0) Eh X); [right; apply in_app_iff; now left|exact Y|now rewrite (reply_acts _ _ Z)].
      - destruct (HR k r' Hr') as (h1 & X & Y & Z). assert (Eq : h1 = HObject k ev0) by (apply (one_half e tr hs s H); [exact X|exact Hin0|exact Y|now rewrite (reply_acts _ _ Z)]). subst h1.
        cbn [half_reply] in Z. injection Z as <-. exact Hf. }
    destruct Ob as (acl & Ob). unfold spec_step, with_access, with_scope, refuse in St. rewrite Ob in St. destruct (o_who (ev_outside ev)) as [i|z|]; [|right; left; apply St|destruct (NP eq_refl)].
    destruct St as [(_ & St & _)|(_ & [(_ & St & _)|(_ & St & _)])]; auto.
  Qed.

  Lemma decrypt_gone tok oid r0 : c = OnObject (CDecrypt tok oid) -> r = LObject r0 -> object_deleted oid tr tra ->
    r0 = Err ED1AccessNotFound \/ r0 = Err ED1NotAuthenticated \/ r0 = Err ED1NotAuthorized.
  Proof.
    intros Ec Er (tr0 & tk & Ha & Hset). pose proof acts as (hs & s & H).
    destruct (call_looks_up e tra trb c r acts Hr hs s tok H ltac:(rewrite Ec; reflexivity)) as (h & pre & post & E & A & B & C).
    destruct h as [m ev|m x t w|m ev|m ev]; cbn [half_reply] in B; [destruct C as (_ & c1 & C); congruence|contradiction| |destruct C; congruence].
    destruct C as (C & x & p1 & p2 & E0). assert (Eev : ev_call ev = CDecrypt tok oid) by congruence. rewrite Er in B. injection B as B. clear C.
    pose proof (no_panic hs s pre _ post x tok _ p1 p2 H E E0) as NP.
    pose proof H as (HH & ND & HO & _ & HR & _). pose proof HH as HH'. rewrite E in HH. apply hh_mid in HH as (a & b & H1 & (St & _) & _). rewrite Eev, B in St.
    assert (Ob : ls_objects a !! oid = None).
    { destruct (came_before e tr hs s H _ _ _ _ _ _ Ha eq_refl pre _ post E A) as (q1 & h' & mid & Ep & A' & B' & C' & D').
      rewrite Ep in H1. apply hh_mid in H1 as (a1 & b1 & _ & Hs & H2).
      assert (Hin' : In h' hs) by (rewrite E, Ep; apply in_app_iff; left; apply in_app_iff; right; now left). specialize (HO _ Hin') as Ho'.
      assert (H0 : ls_objects b1 !! oid = None).
      { destruct h' as [k ev'|k x' t' w'|k ev'|k ev']; cbn [half_reply] in B'; try discriminate; injection B' as B'. cbn [half_of half_call] in Ho', C'; destruct Ho' as [Ho' _].
        rewrite C' in Ho'; injection Ho' as Ho'. cbn [half_step] in Hs. destruct Hs as [Hs _]. rewrite <- Ho', B' in Hs. unfold spec_step, with_scope, refuse in Hs.
        destruct (o_who (ev_outside ev')) as [i|z|]; [|destruct Hs as [[=] _]..]. destruct Hs as [(_ & [=] & _)|(_ & Hs)]. destruct (ls_objects a1 !! oid) as [[o' acl]|] eqn:Eo; [|destruct Hs as [_ ->]; exact Eo].
        destruct Hs as [(_ & [=] & _)|(_ & _ & ->)]. apply lookup_delete. }
      apply (hh_inv (fun s => ls_objects s !! oid = None) _ _ _ H2 H0). intros h0 a0 b0 Hin Hst0 Hob.
      destruct h0 as [k ev0|k x0 t0 w0|k ev0|k ev0]; cbn [half_step] in Hst0; [destruct Hst0 as (_ & -> & _); exact Hob|destruct Hst0 as (_ & ->); exact Hob| |destruct Hst0 as (_ & _ & ->); exact Hob].
      destruct Hst0 as (Hst0 & _). eapply step_missing; [exact Hst0|exact Hob|]. intros Hk.
      assert (Hin0 : In (HObject k ev0) hs) by (rewrite E, Ep; apply in_app_iff; left; apply in_app_iff; right; now right). destruct (HO _ Hin0) as [Hk0 _].
      destruct (Hset k _ Hk0 Hk) as (r' & [Hr'|[Hr' Hf]]).
      - exfalso. destruct (D' k r' Hr') as (h1 & X & Y & Z). apply (half_twice e tr hs s H q1 (h' :: mid ++ HObject m ev :: post) h1 (HObject k ev0)); [rewrite E, Ep, <- app_assoc; reflexivity|exact X|right; apply in_app_iff; now left|exact Y|now rewrite (reply_acts _ _ Z)].
      - destruct (HR k r' Hr') as (h1 & X & Y & Z). assert (Eq : h1 = HObject k ev0) by (apply (one_half e tr hs s H); [exact X|exact Hin0|exact Y|now rewrite (reply_acts _ _ Z)]). subst h1.
        cbn [half_reply] in Z. injection Z as <-. exact Hf. }
    unfold spec_step, with_access, with_scope, refuse in St. rewrite Ob in St. destruct (o_who (ev_outside ev)) as [i|z|]; [|right; left; apply St|destruct (NP eq_refl)].
    destruct St as [(_ & St & _)|(_ & St & _)]; auto.
  Qed.
End Cor.

(** ** The index *)
(** Going through all numbers is going through the ones that matter, if these are in order. *)
Section Fold.
  Context {A X : Type} (f : A -> nat -> A) (g : A -> X -> A) (num : X -> nat).
  Fixpoint increasing (k : nat) (l : list X) : Prop := match l with [] => True | x :: l => k <= num x /\ increasing (S (num x)) l end.
  Lemma increasing_ge l : forall k x, increasing k l -> In x l -> k <= num x.
  Proof. induction l as [|y l IH]; intros k x H Hin; [destruct Hin|]. destruct H as [H1 H2]. destruct Hin as [->|Hin]; [exact H1|]. specialize (IH _ _ H2 Hin). lia. Qed.
  Lemma fold_numbers N : forall l k a, increasing k l -> (forall x, In x l -> num x < k + N) -> (forall x a, In x l -> f a (num x) = g a x) ->
    (forall n a, k <= n < k + N -> (forall x, In x l -> num x <> n) -> f a n = a) -> fold_left f (seq k N) a = fold_left g l a.
  Proof.
    induction N as [|N IH]; intros l k a Hi Hl Hf Hn.
    - destruct l as [|x l]; [reflexivity|]. exfalso. specialize (Hl x (or_introl eq_refl)). destruct Hi as [Hi _]. lia.
    - cbn [seq fold_left]. destruct l as [|x l].
      + rewrite Hn; [|lia|intros x []]. apply (IH [] (S k) a Logic.I); [intros x []|intros x a0 []|]. intros n a0 L _. apply Hn; [lia|intros x []].
      + destruct Hi as [Hi1 Hi2]. destruct (Nat.eq_dec (num x) k) as [E|E].
        * subst k. rewrite (Hf x a (or_introl eq_refl)). cbn [fold_left]. apply IH; [exact Hi2|intros y Hy; specialize (Hl y (or_intror Hy)); lia|intros y a0 Hy; apply Hf; now right|].
          intros n a0 L Hy. apply Hn; [lia|]. intros y [<-|Hin]; [lia|now apply Hy].
        * rewrite (Hn k a); [|lia|].
          -- apply IH; [split; [lia|exact Hi2]|intros y Hy; specialize (Hl y Hy); lia|exact Hf|]. intros n a0 L Hy. apply Hn; [lia|exact Hy].
          -- intros y [<-|Hin]; [exact E|]. pose proof (increasing_ge _ _ _ Hi2 Hin). lia.
  Qed.
End Fold.
Lemma increasing_ordered {X} (num : X -> nat) l : (forall p1 x p2 y p3, l = p1 ++ x :: p2 ++ y :: p3 -> num x < num y) -> increasing num 0 l.
Proof.
  assert (G : forall k, (forall x, In x l -> k <= num x) -> (forall p1 x p2 y p3, l = p1 ++ x :: p2 ++ y :: p3 -> num x < num y) -> increasing num k l); [|intros H; apply G; [lia|exact H]].
  induction l as [|x l IH]; intros k Hk H; [exact Logic.I|]. split; [apply Hk; now left|]. apply IH.
  - intros y Hy. apply in_split in Hy as (p2 & p3 & ->). exact (H [] x p2 y p3 eq_refl).
  - intros p1 y p2 z p3 ->. apply (H (x :: p1) y p2 z p3 eq_refl).
Qed.
Lemma filter_split {X} (t : X -> bool) : forall l p1 x p2, List.filter t l = p1 ++ x :: p2 -> exists q1 q2, l = q1 ++ x :: q2 /\ List.filter t q1 = p1 /\ List.filter t q2 = p2.
Proof.
  induction l as [|y l IH]; intros p1 x p2 H; cbn [List.filter] in H; [destruct p1; discriminate|]. destruct (t y) eqn:Et.
  - destruct p1 as [|z p1]; cbn [app] in H; injection H as -> H.
    + exists [], l. auto.
    + destruct (IH _ _ _ H) as (q1 & q2 & -> & <- & <-). exists (z :: q1), q2. cbn [app List.filter]. now rewrite Et.
  - destruct (IH _ _ _ H) as (q1 & q2 & -> & <- & <-). exists (y :: q1), q2. cbn [app List.filter]. now rewrite Et.
Qed.

(** The halves that change the list of a keyword, and what they do. *)
Definition touches (kw : bytes) (h : half) : bool :=
  match h with HIndex _ ev => match iv_call ev with IAdd _ kw' _ | IDelete _ kw' _ => bytes_eqb kw' kw | ISearch _ _ => false end | _ => false end.
Definition half_effect (kw : bytes) (l : list bytes) (h : half) : list bytes := match h with HIndex _ ev => ix_effect kw l ev | _ => l end.
Lemma touches_call kw h : touches kw h = true -> exists m ev, h = HIndex m ev /\ ix_keyword (iv_call ev) = kw /\ ~ is_search (iv_call ev).
Proof.
  destruct h as [m ev|m x t w|m ev|m ev]; cbn [touches]; try discriminate. intros H. exists m, ev. split; [reflexivity|]. destruct (iv_call ev); cbn; try discriminate; (split; [now apply bytes_eqb_eq|tauto]).
Qed.
Lemma call_touches kw c m ev : ix_keyword c = kw -> ~ is_search c -> iv_call ev = c -> touches kw (HIndex m ev) = true.
Proof. intros <- Hs E. cbn [touches]. rewrite E. destruct c; cbn in *; try tauto; now apply bytes_eqb_eq. Qed.
Lemma untouched kw l h : touches kw h = false -> half_effect kw l h = l.
Proof. destruct h as [m ev|m x t w|m ev|m ev]; cbn [touches half_effect]; try reflexivity. unfold ix_effect. destruct (iv_call ev), (iv_reply ev); try reflexivity; intros ->; reflexivity. Qed.
Lemma half_listing kw s hs s' : half_history s hs s' -> (forall m ev, In (HIndex m ev) hs -> ~ botched kw ev) -> ls_index s' kw = fold_left (half_effect kw) (List.filter (touches kw) hs) (ls_index s kw).
Proof.
  intros H. induction H as [s|s h s1 hs s2 Hs _ IH]; intros Hb; [reflexivity|]. cbn [List.filter]. rewrite IH by (intros m ev Hin; apply (Hb m ev); now right). clear IH.
  assert (E : ls_index s1 kw = half_effect kw (ls_index s kw) h).
  { destruct h as [m ev|m x t w|m ev|m ev]; cbn [half_step half_effect] in *; [destruct Hs as (_ & _ & ->); reflexivity|destruct Hs as [_ ->]; reflexivity|destruct Hs as (_ & _ & ->); reflexivity|].
    destruct Hs as (Hs & _). change (ls_index s1 kw = fold_left (ix_effect kw) [ev] (ls_index s kw)). apply (history_listing kw (ls_index s) [ev] (ls_index s1)).
    - econstructor; [exact Hs|]. constructor. intros k. reflexivity.
    - intros ev' [<-|[]]. apply (Hb m). now left. }
  destruct (touches kw h) eqn:Et; [cbn [fold_left]; now rewrite E|]. now rewrite E, untouched by exact Et.
Qed.
Lemma reply_to_in tr n r : In (LReply n r) tr -> exists r', reply_to tr n = Some r' /\ In (LReply n r') tr.
Proof.
  induction tr as [|[x|m q] tr IH]; intros H; [destruct H| |]; cbn [reply_to].
  - destruct H as [H|H]; [discriminate|]. destruct (IH H) as (r' & A & B). exists r'. split; [exact A|now right].
  - destruct (Nat.eqb_spec m n) as [->|N]; [exists q; split; [reflexivity|now left]|]. destruct H as [H|H]; [congruence|]. destruct (IH H) as (r' & A & B). exists r'. split; [exact A|now right].
Qed.

Section Search.
  Context (e : env) (tra trb : list lib_obs) (c : lib_call) (r : lib_reply).
  Notation tr := (tra ++ LCall c :: trb).
  Notation n := (length (lib_calls tra)).
  Context (acts : exists hs s, lib_acts e tr hs s) (ord : lib_orderly tr) (Hr : In (LReply n r) trb).
  Lemma search_reads tok kw r0 : c = OnIndex (ISearch tok kw) -> r = LIndex r0 -> ~ seen_botched tra kw ->
    r0 = Ok (IRIds (seen_listing tra kw)) \/ r0 = Err EIxNotAuthenticated \/ r0 = Err EIxNotAuthorized.
  Proof.
    intros Ec Er Hb. pose proof acts as (hs & s & H).
    destruct (call_looks_up e tra trb c r acts Hr hs s tok H ltac:(rewrite Ec; reflexivity)) as (h & pre & post & E & A & B & C).
    destruct h as [m ev|m x t w|m ev|m ev]; cbn [half_reply] in B; [destruct C as (_ & c1 & C); congruence|contradiction|destruct C; congruence|].
    destruct C as (C & x & p1 & p2 & E0). assert (Eev : iv_call ev = ISearch tok kw) by congruence. rewrite Er in B. injection B as B. clear C. cbn [half_call] in A. subst m.
    pose proof (no_panic e tra trb c hs s pre _ post x tok _ p1 p2 H E E0) as NP.
    pose proof H as (HH & ND & HO & _ & HR & _). pose proof (its_call tra trb c) as Hc.
    (* the calls that matter have been answered *)
    assert (An : forall k c', nth_error (lib_calls tra) k = Some (OnIndex c') -> ix_keyword c' = kw -> ~ is_search c' -> exists q, In (LReply k q) tra).
    { intros k c' Hk Ekw Hns. apply (proj2 ord tra c trb eq_refl k (OnIndex c') Hk). rewrite Ec. split; [exact Ekw|]. intros [K _]. exact (Hns K). }
    (* and the ones in the order before are just these *)
    assert (Bf : forall k ev', In (HIndex k ev') pre -> touches kw (HIndex k ev') = true -> nth_error (lib_calls tra) k = Some (OnIndex (iv_call ev'))).
    { intros k ev' Hin Ht. assert (Hin' : In (HIndex k ev') hs) by (rewrite E; apply in_app_iff; now left). destruct (HO _ Hin') as [Hk _].
      destruct (touches_call _ _ Ht) as (m0 & ev0 & [= <- <-] & Ekw & Hns). apply in_split in Hin as (q1 & q2 & Ep).
      assert (L : k < n).
      { apply (odds_in_order e tr hs s H ord q1 (HIndex k ev') q2 (HIndex n ev) post (OnIndex (iv_call ev')) c); [rewrite E, Ep, <- app_assoc; reflexivity|reflexivity|reflexivity|exact Hk|exact Hc|].
        rewrite Ec. split; [symmetry; exact Ekw|]. intros [_ K]. exact (Hns K). }
      exact (nth_call_prefix _ _ _ _ Hk L). }
    assert (Rp : forall k q h0, In (LReply k q) tr -> In h0 hs -> half_call h0 = k -> is_lookup h0 = false -> half_reply h0 = Some q).
    { intros k q h0 Hq Hin0 Hk Hl. destruct (HR k q Hq) as (h1 & X & Y & Z). replace h0 with h1; [exact Z|]. apply (one_half e tr hs s H); [exact X|exact Hin0|congruence|]. now rewrite Hl, (reply_acts _ _ Z). }
    rewrite E in HH. apply hh_mid in HH as (a & b & H1 & (St & _) & _). rewrite Eev, B in St.
    assert (Li : ls_index a kw = seen_listing tra kw).
    { rewrite (half_listing kw _ _ _ H1).
      - change (ls_index lib_empty kw) with (@nil bytes). unfold seen_listing. symmetry. apply (fold_numbers (seen_effect tra kw) (half_effect kw) half_call).
        + apply increasing_ordered. intros l1 h1 l2 h2 l3 El. pose proof El as El'. apply filter_split in El' as (q1 & q2 & Ep & _ & E2). apply filter_split in E2 as (q3 & q4 & -> & _ & _).
          assert (T1 : touches kw h1 = true) by (apply (proj1 (filter_In (touches kw) h1 pre)); rewrite El; apply in_app_iff; right; now left).
          assert (T2 : touches kw h2 = true) by (apply (proj1 (filter_In (touches kw) h2 pre)); rewrite El; apply in_app_iff; right; right; apply in_app_iff; right; now left).
          destruct (touches_call _ _ T1) as (k1 & ev1 & -> & Ek1 & Ns1), (touches_call _ _ T2) as (k2 & ev2 & -> & Ek2 & _).
          apply (odds_in_order e tr hs s H ord q1 _ q3 (HIndex k2 ev2) (q4 ++ HIndex n ev :: post) (OnIndex (iv_call ev1)) (OnIndex (iv_call ev2)));
            [rewrite E, Ep, <- !app_assoc; cbn [app]; rewrite <- !app_assoc; reflexivity|reflexivity|reflexivity| | |split; [congruence|intros [_ K]; exact (Ns1 K)]];
            refine (calls_prefix_nth _ (LCall c :: trb) _ _ (Bf _ _ _ _)); try assumption; rewrite Ep; apply in_app_iff; right; [now left|right; apply in_app_iff; right; now left].
        + intros h0 Hin. apply filter_In in Hin as [Hin Ht]. destruct (touches_call _ _ Ht) as (k & ev0 & -> & _). cbn [half_call]. apply nth_error_Some. now rewrite (Bf _ _ Hin Ht).
        + intros h0 l Hin. apply filter_In in Hin as [Hin Ht]. destruct (touches_call _ _ Ht) as (k & ev0 & -> & Ekw & Hns). cbn [half_call half_effect]. pose proof (Bf _ _ Hin Ht) as Hk.
          unfold seen_effect. rewrite Hk. destruct (An _ _ Hk Ekw Hns) as (q & Hq). apply reply_to_in in Hq as (q' & -> & Hq').
          assert (Eq : Some (LIndex (iv_reply ev0)) = Some q') by (apply (Rp k q' (HIndex k ev0)); [apply in_app_iff; now left|rewrite E; apply in_app_iff; now left|reflexivity|reflexivity]).
          injection Eq as <-. unfold ix_effect. destruct (iv_call ev0), (iv_reply ev0); reflexivity.
        + intros k l [_ L] Hno. unfold seen_effect. destruct (nth_error (lib_calls tra) k) as [[?|c'|?]|] eqn:Hk; try reflexivity.
          assert (K : ix_keyword c' = kw /\ ~ is_search c' -> False).
          { intros [Ekw Hns]. destruct (An _ _ Hk Ekw Hns) as (q & Hq). destruct (comes_before e tr hs s H tra _ eq_refl k q Hq pre _ post E ltac:(cbn; lia)) as (h1 & X & Y & Z).
            assert (Hin1 : In h1 hs) by (rewrite E; apply in_app_iff; now left). specialize (HO _ Hin1).
            destruct h1 as [k1 ev1|k1 x1 t1 w1|k1 ev1|k1 ev1]; cbn [half_call half_of half_reply] in *; try discriminate; subst k1; destruct HO as [HO _]; rewrite (calls_prefix_nth _ (LCall c :: trb) _ _ Hk) in HO; try discriminate HO.
            injection HO as HO. apply (Hno (HIndex k ev1)); [|reflexivity]. apply filter_In. split; [exact X|]. eapply call_touches; [exact Ekw|exact Hns|symmetry; exact HO]. }
          destruct (reply_to tra k) as [[?|[]|?]|]; destruct c' as [tk kw' y|tk kw'|tk kw' y]; try reflexivity; destruct (bytes_eqb kw' kw) eqn:Eb; try reflexivity; apply bytes_eqb_eq in Eb; destruct K; (split; [exact Eb|intros []]).
      - intros k ev' Hin (tk & y & Ecall & Erep). apply Hb. exists k, tk, y.
        assert (Ht : touches kw (HIndex k ev') = true) by (eapply call_touches; [| |exact Ecall]; [reflexivity|intros []]).
        pose proof (Bf _ _ Hin Ht) as Hk. rewrite Ecall in Hk. split; [exact Hk|]. destruct (An _ _ Hk eq_refl ltac:(intros [])) as (q & Hq).
        assert (Eq : Some (LIndex (iv_reply ev')) = Some q) by (apply (Rp k q (HIndex k ev')); [apply in_app_iff; now left|rewrite E; apply in_app_iff; now left|reflexivity|reflexivity]).
        injection Eq as <-. now rewrite <- Erep. }
    unfold ix_step, ix_allowed in St. destruct (ix_who (iv_x ev)) as [i|z|]; [|right; left; apply St|destruct (NP eq_refl)].
    destruct St as [(_ & St & _)|(_ & St & _)]; [auto|]. left. rewrite St, Li. reflexivity.
  Qed.
End Search.
