(** The whole library under an adversary who controls storage and the schedule. *)
From stdpp Require Import gmap.
From Verif Require Import Bytes Go Uuid Time Types World Id Data D1 Spec SpecProofs Sched Authority D1Sched Standalone StandaloneSpec StandaloneRefine
  IdAuthority SaSched Index IndexSpec IndexConcSpec IndexSched Lib.
Local Open Scope bool_scope.
Local Open Scope N_scope.

Section Gen.
  Context {S I : Type}.
  Notation W := (world S I).
  Lemma rg_iff {B} (E E' : entry -> Prop) (p : prog W B) Q : (forall x, E x <-> E' x) -> rg E p Q -> rg E' p Q.
  Proof.
    intros HE. assert (HF : forall l, Forall E l <-> Forall E' l) by (intros l; rewrite !List.Forall_forall; split; intros H x Hx; apply HE, H, Hx).
    induction p as [a|X f k IH]; cbn [rg]; [auto|]. intros H w Hw Hf. destruct (H w) as [C|[C1 C2]]; [now apply HF|exact Hf|now left|right].
    split; [now apply HF|]. now apply IH.
  Qed.
  Lemma rg2_iff {B} (E E' : entry -> Prop) (p : prog W B) (P P' : prog W B -> Prop) : (forall x, E x <-> E' x) -> (forall q, P q -> P' q) -> rg2 E p P -> rg2 E' p P'.
  Proof.
    intros HE HP. assert (HF : forall l, Forall E l <-> Forall E' l) by (intros l; rewrite !List.Forall_forall; split; intros H x Hx; apply HE, H, Hx).
    induction p as [a|X f k IH]; cbn [rg2]; intros [H|H]; auto. right. intros w Hw Hf. destruct (H w) as [C|[C1 C2]]; [now apply HF|exact Hf|now left|right].
    split; [now apply HF|]. now apply IH.
  Qed.
  Lemma stamped_iff {B T} (E E' : entry -> Prop) (ok : T -> B -> Prop) made Q (p : prog W B) : (forall x, E x <-> E' x) ->
    stamped_prog E ok made Q p -> stamped_prog E' ok made Q p.
  Proof. intros HE (s & H1 & H2). exists s. split; [exact H1|]. intros Hm. eapply rg_iff; [exact HE|auto]. Qed.
  (** Wrapping the result. *)
  Definition img {A B} (f : A -> B) (P : A -> Prop) (b : B) : Prop := exists a, b = f a /\ P a.
  Lemma rg_wrap {A B} E (f : A -> B) (p : prog W A) Q : rg E p Q -> rg E (bind p (fun a => Ret (f a))) (img f Q).
  Proof. intros H. apply rg_bind. eapply rg_mono; [|exact H]. intros a Ha. exists a. auto. Qed.
  Lemma leaves_wrap {A B} (f : A -> B) (p : prog W A) P : leaves P p -> leaves (img f P) (bind p (fun a => Ret (f a))).
  Proof. induction p as [a|X g k IH]; cbn [leaves bind]; [intros H; exists a; auto|auto]. Qed.
  Lemma rg2_wrap {A B T} E (f : A -> B) (p : prog W A) (ok : T -> A -> Prop) made Q :
    rg2 E p (stamped_prog E ok made Q) -> rg2 E (bind p (fun a => Ret (f a))) (stamped_prog E (fun s => img f (ok s)) made (img f Q)).
  Proof.
    assert (N : forall q : prog W A, stamped_prog E ok made Q q -> stamped_prog E (fun s => img f (ok s)) made (img f Q) (bind q (fun a => Ret (f a)))).
    { intros q (s & H1 & H2). exists s. split; [now apply leaves_wrap|]. intros Hm. now apply rg_wrap, H2. }
    induction p as [a|X g k IH]; intros [H|H]; try contradiction; [apply rg2_now, N, H|apply rg2_now, N, H|].
    cbn [bind]. right. intros w Hw Hf. destruct (H w Hw Hf) as [C|[C1 C2]]; [now left|right]. auto.
  Qed.
  Lemma fmono_wrap {A B} (f : A -> B) (p : prog W A) : fmono p -> fmono (bind p (fun a => Ret (f a))).
  Proof. intros H. apply fmono_bind; [exact H|]. intros; exact Logic.I. Qed.
End Gen.

Section Lib.
  Context {S I : Type} (e : env) (io : provider S) (L : lib) (fuel : nat).
  Notation W := (world S I).
  Context (ds : list d1_call) (is : list ix_call) (ss : list sa_call) (w w' : W) (pool' : list (prog W lib_reply)).
  Notation d := (l_d1 L).
  Notation iek := (l_iek L).
  Notation k := (l_sa L).
  Notation K := (lib_key L is).
  Notation idp := (sa_idp e io k : bytes -> prog W _).
  Context (clock_wf : forall n, time_wf (clock e n)) (Hiek : blen iek = 32).
  Context (apart : keys_apart L is) (differ : ix_keys_differ iek (map ix_keyword is)).
  Context (ds_wf : Forall call_wf ds) (ss_wf : Forall sa_call_wf ss).
  Notation madeD := (object_made ds pool').
  Notation madeS := (identity_made ds is ss pool').
  Notation who := (lib_resolves e ds is ss pool').

  Definition D (x : entry) : Prop := Ed1 d ds who madeD x.
  Definition X (x : entry) : Prop := Eix iek is who x.
  Definition A (x : entry) : Prop := Esa e k ss madeS x.
  Definition E (x : entry) : Prop := D x /\ X x /\ A x.
  Lemma D_other x : ~ d1_key d (e_kek x) -> D x. Proof. now left. Qed.
  Lemma X_other x : ~ ix_key_of iek is (e_kek x) -> X x. Proof. now left. Qed.
  Lemma A_other x : ~ sa_key k (e_kek x) -> A x. Proof. now left. Qed.
  Lemma E_other x : ~ K (e_kek x) -> E x.
  Proof. unfold lib_key. intros H. split; [|split]; [apply D_other|apply X_other|apply A_other]; tauto. Qed.
  Definition ExD (x : entry) : Prop := X x /\ A x.
  Definition ExX (x : entry) : Prop := D x /\ A x.
  Definition ExA (x : entry) : Prop := D x /\ X x.
  Lemma ExD_own x : d1_key d (e_kek x) -> ExD x.
  Proof. intros H. split; [apply X_other|apply A_other]; intros C; [eapply ka_d1_ix|eapply ka_d1_sa]; eauto. Qed.
  Lemma ExX_own x : ix_key_of iek is (e_kek x) -> ExX x.
  Proof. intros H. split; [apply D_other|apply A_other]; intros C; [eapply ka_d1_ix|eapply ka_ix_sa]; eauto. Qed.
  Lemma ExA_own x : sa_key k (e_kek x) -> ExA x.
  Proof. intros H. split; [apply D_other|apply X_other]; intros C; [eapply ka_d1_sa|eapply ka_ix_sa]; eauto. Qed.
  Lemma ED x : D1Sched.E d ds who madeD ExD x <-> E x.
  Proof. unfold D1Sched.E, ExD, E. fold (D x). tauto. Qed.
  Lemma EX x : IndexSched.E iek is who ExX x <-> E x.
  Proof. unfold IndexSched.E, ExX, E. fold (X x). tauto. Qed.
  Lemma EA x : SaSched.E e k ss madeS ExA x <-> E x.
  Proof. unfold SaSched.E, ExA, E. fold (A x). tauto. Qed.
  Lemma ug : s_gek k <> s_uek k.
  Proof. intros H. apply (ka_users_groups L is apart). auto. Qed.

  Lemma idp_rg tok : rg E (idp tok) (fun r => forall i, r = Ok i -> who tok i).
  Proof. eapply rg_iff; [exact EA|]. apply (rg_identity e io k ss madeS ExA ug ss_wf tok). Qed.
  Lemma idp_fmono tok : fmono (idp tok).
  Proof. apply (fmono_identity e io k tok). Qed.

  (** The threads. *)
  Definition TI (t : nat) (p : prog W lib_reply) : Prop :=
    (exists c, ds !! t = Some c /\
       (rg E p (img LObject (okP (justified ds who madeD c))) \/
        rg2 E p (stamped_prog E (fun s => img LObject (stamped s)) (madeD t) (img LObject (okP (justified ds who madeD c)))))) \/
    (exists t' c, t = (length ds + t')%nat /\ is !! t' = Some c /\ rg E p (img LIndex (sound is who c))) \/
    (exists t' c, t = (length ds + length is + t')%nat /\ ss !! t' = Some c /\
       (rg E p (img LIdentity (okP (sa_justified e ss madeS c))) \/
        rg2 E p (stamped_prog E (fun s => img LIdentity (sa_stamped s)) (madeS t') (img LIdentity (okP (sa_justified e ss madeS c)))))).

  Notation pool := (lib_pool e io L fuel ds is ss : list (prog W lib_reply)).
  Lemma pool_lookup t p : pool !! t = Some p ->
    (exists c, ds !! t = Some c /\ p = bind (d1_aes e io idp d c) (fun r => Ret (LObject r))) \/
    (exists t' c, t = (length ds + t')%nat /\ is !! t' = Some c /\ p = bind (ix_do e io idp iek fuel c) (fun r => Ret (LIndex r))) \/
    (exists t' c, t = (length ds + length is + t')%nat /\ ss !! t' = Some c /\ p = bind (sa_aes e io k c) (fun r => Ret (LIdentity r))).
  Proof.
    unfold lib_pool. intros H. apply lookup_app_Some in H as [H|[Hl H]].
    - left. apply map_lookup_Some in H as (c & -> & Hc). eauto.
    - rewrite map_length in *. apply lookup_app_Some in H as [H|[Hl' H]].
      + right; left. apply map_lookup_Some in H as (c & -> & Hc). exists (t - length ds)%nat, c. split; [lia|auto].
      + rewrite map_length in *. right; right. apply map_lookup_Some in H as (c & -> & Hc). exists (t - length ds - length is)%nat, c. split; [lia|auto].
  Qed.
  Lemma pool_fmono t p : pool !! t = Some p -> fmono p.
  Proof.
    intros H. apply pool_lookup in H as [(c & _ & ->)|[(t' & c & _ & _ & ->)|(t' & c & _ & _ & ->)]]; apply fmono_wrap.
    - apply D1Sched.fmono_call, idp_fmono.
    - apply IndexSched.fmono_call, idp_fmono.
    - apply fmono_sa.
  Qed.
  Lemma pool_TI t p : pool !! t = Some p -> TI t p.
  Proof.
    intros H. apply pool_lookup in H as [(c & Hc & ->)|[(t' & c & -> & Hc & ->)|(t' & c & -> & Hc & ->)]].
    - left. exists c. split; [exact Hc|].
      destruct (D1Sched.TI_call e io idp d ds who madeD clock_wf ds_wf ExD ExD_own) with (t := t) (c := c) as (c' & Hc' & HT); auto.
      { intros tok. eapply rg_iff; [|apply idp_rg]. intros x. symmetry. apply ED. }
      rewrite Hc in Hc'. injection Hc' as <-. destruct HT as [HT|HT]; [left|right].
      + eapply rg_iff; [exact ED|]. apply rg_wrap, HT.
      + refine (rg2_iff _ _ _ _ _ ED _ (rg2_wrap _ LObject _ stamped _ _ HT)). intros q. apply stamped_iff, ED.
    - right; left. exists t', c. split; [reflexivity|]. split; [exact Hc|]. apply rg_wrap. eapply rg_iff; [exact EX|].
      apply (IndexSched.rg_call e io idp iek Hiek fuel is who ExX ExX_own); auto.
      + intros tok. eapply rg_iff; [|apply idp_rg]. intros x. symmetry. apply EX.
      + apply idp_fmono.
      + apply elem_of_list_In. eapply elem_of_list_lookup_2; eauto.
    - right; right. exists t', c. split; [reflexivity|]. split; [exact Hc|].
      destruct (SaSched.TI_call (I := I) e io k ss madeS ExA ExA_own ug clock_wf ss_wf t' c Hc) as (c' & Hc' & HT).
      rewrite Hc in Hc'. injection Hc' as <-. destruct HT as [HT|HT]; [left|right].
      + eapply rg_iff; [exact EA|]. apply rg_wrap, HT.
      + refine (rg2_iff _ _ _ _ _ EA _ (rg2_wrap _ LIdentity _ sa_stamped _ _ HT)). intros q. apply stamped_iff, EA.
  Qed.
  Lemma pool_sound : Forall (fun x => ~ K (e_kek x)) (w_log w) -> exec K pool w pool' w' -> w_forged w' = false ->
    forall t p, pool' !! t = Some p -> TI t p.
  Proof.
    intros Hlog Hex Hforged. destruct (exec_sound K E TI _ _ _ _ Hex E_other pool_fmono) as [C|[_ HT]]; [| |congruence|exact HT].
    - intros _. split; [eapply List.Forall_impl; [|exact Hlog]; exact E_other|]. exact pool_TI.
    - intros t Y f kk [(c & Hc & [HT|HT])|[(t' & c & -> & Hc & HT)|(t' & c & -> & Hc & [HT|HT])]] HL w0 HE Hf0.
      + destruct (HT w0 HE Hf0) as [C|[C1 C2]]; [now left|right]. split; [exact C1|]. left. exists c. auto.
      + destruct (rg2_kept E pool' t (fun s => img LObject (stamped s)) (madeD t) (img LObject (okP (justified ds who madeD c)))) with (X := Y) (f := f) (k := kk) (w := w0) as [C|[C1 C2]]; auto.
        * intros s p' Hp' HL' r [_ Hr]. rewrite Hp' in Hr. injection Hr as ->. destruct HL' as (r' & [= ->] & H). exact H.
        * right. split; [exact C1|]. left. exists c. auto.
      + destruct (HT w0 HE Hf0) as [C|[C1 C2]]; [now left|right]. split; [exact C1|]. right; left. exists t', c. auto.
      + destruct (HT w0 HE Hf0) as [C|[C1 C2]]; [now left|right]. split; [exact C1|]. right; right. exists t', c. auto.
      + destruct (rg2_kept E pool' (length ds + length is + t')%nat (fun s => img LIdentity (sa_stamped s)) (madeS t') (img LIdentity (okP (sa_justified e ss madeS c)))) with (X := Y) (f := f) (k := kk) (w := w0) as [C|[C1 C2]]; auto.
        * intros s p' Hp' HL' r [_ Hr]. rewrite Hp' in Hr. injection Hr as ->. destruct HL' as (r' & [= ->] & H). exact H.
        * right. split; [exact C1|]. right; right. exists t', c. auto.
  Qed.
  Context (log_new : Forall (fun x => ~ K (e_kek x)) (w_log w)) (run : exec K pool w pool' w') (no_forgery : w_forged w' = false).
  Lemma object_result t c r : ds !! t = Some c -> pool' !! t = Some (Ret (LObject (Ok r))) -> justified ds who madeD c r.
  Proof.
    intros Hc Hr. pose proof (lookup_lt_Some _ _ _ Hc) as Hlt.
    destruct (pool_sound log_new run no_forgery t _ Hr) as [(c' & Hc' & HT)|[(t' & c' & -> & _ & _)|(t' & c' & -> & _ & _)]]; [|lia..].
    rewrite Hc in Hc'. injection Hc' as <-. destruct HT as [(r' & [= <-] & H)|[(s & (r' & [= <-] & Hs) & HT)|[]]]; [now apply H|].
    assert (Hm : madeD t s). { intros r' [_ Hr']. rewrite Hr in Hr'. injection Hr' as <-. exact Hs. }
    destruct (HT Hm) as (r' & [= <-] & H). now apply H.
  Qed.
  Lemma index_result t c r : is !! t = Some c -> pool' !! (length ds + t)%nat = Some (Ret (LIndex r)) -> sound is who c r.
  Proof.
    intros Hc Hr. pose proof (lookup_lt_Some _ _ _ Hc) as Hlt.
    destruct (pool_sound log_new run no_forgery _ _ Hr) as [(c' & Hc' & _)|[(t' & c' & Ht & Hc' & HT)|(t' & c' & Ht & _ & _)]]; [apply lookup_lt_Some in Hc'; lia| |lia].
    assert (t' = t) as -> by lia. rewrite Hc in Hc'. injection Hc' as <-. destruct HT as (r' & [= <-] & H). exact H.
  Qed.
  Lemma identity_result t c r : ss !! t = Some c -> pool' !! (length ds + length is + t)%nat = Some (Ret (LIdentity (Ok r))) -> sa_justified e ss madeS c r.
  Proof.
    intros Hc Hr. pose proof (lookup_lt_Some _ _ _ Hc) as Hlt.
    destruct (pool_sound log_new run no_forgery _ _ Hr) as [(c' & Hc' & _)|[(t' & c' & Ht & Hc' & _)|(t' & c' & Ht & Hc' & HT)]]; [apply lookup_lt_Some in Hc'; lia|apply lookup_lt_Some in Hc'; lia|].
    assert (t' = t) as -> by lia. rewrite Hc in Hc'. injection Hc' as <-. destruct HT as [(r' & [= <-] & H)|[(s & (r' & [= <-] & Hs) & HT)|[]]]; [now apply H|].
    assert (Hm : madeS t s). { intros r' [_ Hr']. rewrite Hr in Hr'. injection Hr' as <-. exact Hs. }
    destruct (HT Hm) as (r' & [= <-] & H). now apply H.
  Qed.
End Lib.
