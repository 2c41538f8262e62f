(** Any number of calls running at once, interleaved step by step with each other and with an
    adversary who controls storage. *)
From stdpp Require Import gmap.
From Verif Require Import Bytes Go World.
Local Open Scope bool_scope.

Section Sched.
  Context {S I A : Type} .
  Notation W := (world S I).

  (** What happens outside the calls: storage, the identity provider's state, the clock and the
      position in the random tape change arbitrarily; others encrypt, but not under a key in [K]. *)
  Definition adversary (K : bytes -> Prop) (w w' : W) : Prop :=
    (exists new, w_log w' = new ++ w_log w /\ Forall (fun x => ~ K (e_kek x)) new) /\
    (w_forged w = true -> w_forged w' = true).

  (** A pool of calls.  One step of one of them, or a step of the adversary. *)
  Inductive exec (K : bytes -> Prop) : list (prog W A) -> W -> list (prog W A) -> W -> Prop :=
  | x_nil pool w : exec K pool w pool w
  | x_step t X (f : W -> X * W) k pool w pool' w' :
      pool !! t = Some (Step f k) ->
      exec K (<[t := k (fst (f w))]> pool) (snd (f w)) pool' w' -> exec K pool w pool' w'
  | x_adv pool w w1 pool' w' : adversary K w w1 -> exec K pool w1 pool' w' -> exec K pool w pool' w'.

  (** ** Reasoning *)
  (** The ghost flag is never lowered. *)
  Fixpoint fmono {B} (p : prog W B) : Prop :=
    match p with
    | Ret _ => True
    | Step f k => forall w, (w_forged w = true -> w_forged (snd (f w)) = true) /\ fmono (k (fst (f w)))
    end.
  (** Every result the program can still produce satisfies [P]. *)
  Fixpoint leaves {B} (P : B -> Prop) (p : prog W B) : Prop :=
    match p with Ret a => P a | Step f k => forall x, leaves P (k x) end.
  (** While all logged encryptions satisfy [E] and nothing was forged, whatever else the
      environment does, the program only logs encryptions satisfying [E] and ends with [Q]. *)
  Fixpoint rg {B} (E : entry -> Prop) (p : prog W B) (Q : B -> Prop) : Prop :=
    match p with
    | Ret a => Q a
    | Step f k => forall w, Forall E (w_log w) -> w_forged w = false ->
        w_forged (snd (f w)) = true \/ (Forall E (w_log (snd (f w))) /\ rg E (k (fst (f w))) Q)
    end.

  (** A program that encrypts nothing under a key in [K] and answers only [Q], whatever happens
      around it. *)
  Fixpoint outsider {B} (K : bytes -> Prop) (p : prog W B) (Q : B -> Prop) : Prop :=
    match p with
    | Ret a => Q a
    | Step f k => forall w, adversary K w (snd (f w)) /\ outsider K (k (fst (f w))) Q
    end.
  Lemma outsider_fmono {B} K (p : prog W B) Q : outsider K p Q -> fmono p.
  Proof.
    induction p as [a|X f k IH]; cbn [outsider fmono]; [auto|]. intros H w. destruct (H w) as [[_ H1] H2]. split; [exact H1|]. eapply IH, H2.
  Qed.
  Lemma outsider_rg {B} K (E : entry -> Prop) (p : prog W B) Q : (forall x, ~ K (e_kek x) -> E x) -> outsider K p Q -> rg E p Q.
  Proof.
    intros HK. induction p as [a|X f k IH]; cbn [outsider rg]; [auto|]. intros H w HE Hf. destruct (H w) as [[(new & Hl & Hn) _] H2].
    right. split; [|apply IH, H2]. rewrite Hl. apply List.Forall_forall. intros x Hx. apply in_app_or in Hx as [Hx|Hx].
    - apply HK. rewrite List.Forall_forall in Hn. auto.
    - rewrite List.Forall_forall in HE. auto.
  Qed.

  Lemma exec_leaves K P pool w pool' w' t p : exec K pool w pool' w' -> pool !! t = Some p -> leaves P p ->
    exists p', pool' !! t = Some p' /\ leaves P p'.
  Proof.
    intros H. revert p. induction H as [|t' X f k pool w pool' w' Ht H IH|pool w w1 pool' w' _ H IH]; intros p Hp HL; eauto.
    destruct (decide (t' = t)) as [->|Hne].
    - rewrite Ht in Hp. injection Hp as <-. eapply IH; [apply list_lookup_insert; eapply lookup_lt_Some; eauto|]. apply HL.
    - eapply IH; [rewrite list_lookup_insert_ne by auto; exact Hp|exact HL].
  Qed.

  Lemma rg_mono {B} E (p : prog W B) (Q Q' : B -> Prop) : (forall a, Q a -> Q' a) -> rg E p Q -> rg E p Q'.
  Proof.
    intros HQ. induction p as [a|X f k IH]; cbn [rg]; [auto|]. intros H w HE Hf. destruct (H w HE Hf) as [C|[C1 C2]]; auto.
  Qed.

  (** Soundness of thread invariants.  A step of thread [t] may use what is known about the
      results thread [t] can still produce in the final pool. *)
  Definition kept (E : entry -> Prop) (pool' : list (prog W A)) (t : nat) (TI : prog W A -> Prop) : Prop :=
    forall X (f : W -> X * W) k, TI (Step f k) ->
      (forall P, leaves P (Step f k) -> exists p', pool' !! t = Some p' /\ leaves P p') ->
      forall w, Forall E (w_log w) -> w_forged w = false ->
      w_forged (snd (f w)) = true \/ (Forall E (w_log (snd (f w))) /\ TI (k (fst (f w)))).
  Lemma exec_sound K (E : entry -> Prop) (TI : nat -> prog W A -> Prop) pool w pool' w' :
    exec K pool w pool' w' ->
    (forall x, ~ K (e_kek x) -> E x) ->
    (forall t p, pool !! t = Some p -> fmono p) ->
    (w_forged w = false -> Forall E (w_log w) /\ forall t p, pool !! t = Some p -> TI t p) ->
    (forall t, kept E pool' t (TI t)) ->
    w_forged w' = true \/ (Forall E (w_log w') /\ forall t p, pool' !! t = Some p -> TI t p).
  Proof.
    intros H HK. induction H as [pool w|t' X f k pool w pool' w' Ht H IH|pool w w1 pool' w' [(new & Hl & Hn) Hf] H IH]; intros Hm HI Hkept.
    - destruct (w_forged w) eqn:Ew; auto.
    - assert (Lt : t' < length pool) by (eapply lookup_lt_Some; eauto).
      assert (HL : forall P, leaves P (Step f k) -> exists p', pool' !! t' = Some p' /\ leaves P p').
      { intros P HP. eapply exec_leaves; [eapply x_step; eauto|exact Ht|exact HP]. }
      pose proof (Hm _ _ Ht w) as [Hm1 Hm2]. apply IH.
      + intros t p Hp. apply list_lookup_insert_Some in Hp as [(-> & <- & _)|[_ Hp]]; eauto.
      + intros Ew'. assert (Ew : w_forged w = false) by (destruct (w_forged w) eqn:E0; [rewrite (Hm1 eq_refl) in Ew'; discriminate|reflexivity]).
        destruct (HI Ew) as [HE HT]. destruct (Hkept t' X f k (HT _ _ Ht) HL w HE Ew) as [C|[HE' HT']]; [congruence|].
        split; [exact HE'|]. intros t p Hp. apply list_lookup_insert_Some in Hp as [(-> & <- & _)|[_ Hp]]; eauto.
      + exact Hkept.
    - apply IH; [exact Hm| |exact Hkept]. intros Ew1. assert (Ew : w_forged w = false) by (destruct (w_forged w) eqn:E0; [rewrite (Hf eq_refl) in Ew1; discriminate|reflexivity]).
      destruct (HI Ew) as [HE HT]. split; [|exact HT]. rewrite Hl. apply List.Forall_forall. intros x Hx. apply in_app_or in Hx as [Hx|Hx].
      + apply HK. rewrite List.Forall_forall in Hn. auto.
      + rewrite List.Forall_forall in HE. auto.
  Qed.

  (** A program that first does something, then is in a state satisfying [P2]. *)
  Fixpoint rg2 {B} (E : entry -> Prop) (p : prog W B) (P2 : prog W B -> Prop) : Prop :=
    P2 p \/
    match p with
    | Ret a => False
    | Step f k => forall w, Forall E (w_log w) -> w_forged w = false ->
        w_forged (snd (f w)) = true \/ (Forall E (w_log (snd (f w))) /\ rg2 E (k (fst (f w))) P2)
    end.
  Lemma rg2_bind {B C} E (p : prog W B) (k : B -> prog W C) P2 : rg E p (fun a => rg2 E (k a) P2) -> rg2 E (bind p k) P2.
  Proof.
    induction p as [a|X f c IH]; cbn [rg bind]; [auto|]. intros H. right. intros w HE Hf. destruct (H w HE Hf) as [D|[D1 D2]]; auto.
  Qed.
  Lemma rg2_now {B} E (p : prog W B) (P2 : prog W B -> Prop) : P2 p -> rg2 E p P2.
  Proof. destruct p; cbn [rg2]; auto. Qed.
  Lemma rg2_bindR {B C} E (p : prog W (res B)) (k : B -> prog W (res C)) (P2 : prog W (res C) -> Prop) :
    rg E p (fun r => match r with Ok a => rg2 E (k a) P2 | Err x => P2 (Ret (Err x)) | Panic => P2 (Ret Panic) end) -> rg2 E (bindR p k) P2.
  Proof.
    intros H. unfold bindR. apply rg2_bind. eapply rg_mono; [|exact H]. intros [a|x|]; auto using rg2_now.
  Qed.
  Lemma rg_kept E pool' t (Q : A -> Prop) : kept E pool' t (fun p => rg E p Q).
  Proof. intros X f k H _ w HE Hf. exact (H w HE Hf). Qed.
  (** Such a program whose second state may be reasoned about knowing its final results. *)
  Definition stamped_prog {B T} (E : entry -> Prop) (ok : T -> B -> Prop) (made : T -> Prop) (Q : B -> Prop) (p : prog W B) : Prop :=
    exists s, leaves (ok s) p /\ (made s -> rg E p Q).
  Lemma rg2_kept {T} E pool' t (ok : T -> A -> Prop) (made : T -> Prop) (Q : A -> Prop) :
    (forall s p', pool' !! t = Some p' -> leaves (ok s) p' -> made s) ->
    kept E pool' t (fun p => rg2 E p (stamped_prog E ok made Q)).
  Proof.
    intros Hm X f k H HL w HE Hf. destruct H as [(s & Hs & Hr)|H]; [|exact (H w HE Hf)].
    destruct (HL _ Hs) as (p' & Hp & Hl). specialize (Hr (Hm _ _ Hp Hl)). destruct (Hr w HE Hf) as [C|[C1 C2]]; [now left|right].
    split; [exact C1|]. apply rg2_now. exists s. split; [exact (Hs (fst (f w)))|auto].
  Qed.
  Lemma rg_bind {B C} E (p : prog W B) (k : B -> prog W C) Q : rg E p (fun a => rg E (k a) Q) -> rg E (bind p k) Q.
  Proof.
    induction p as [a|X f c IH]; cbn [rg bind]; [auto|]. intros H w HE Hf. destruct (H w HE Hf) as [D|[D1 D2]]; auto.
  Qed.
  Lemma rg_bindR {B C} E (p : prog W (res B)) (k : B -> prog W (res C)) Q :
    rg E p (fun r => match r with Ok a => rg E (k a) Q | Err x => Q (Err x) | Panic => Q Panic end) -> rg E (bindR p k) Q.
  Proof.
    intros H. unfold bindR. apply rg_bind. eapply rg_mono; [|exact H]. intros [a|x|]; cbn [rg]; auto.
  Qed.
  Lemma rg_ret {B} E (a : B) (Q : B -> Prop) : Q a -> rg E (Ret a) Q.
  Proof. auto. Qed.
  Lemma rg_onio {B} E (p : prog S B) : rg E (on_io p : prog W B) (fun _ => True).
  Proof.
    induction p as [a|X f k IH]; cbn [on_io rg]; [auto|]. intros w HE Hf. destruct (f (w_io w)) as [x s]. cbn [fst snd].
    right. split; [exact HE|apply IH].
  Qed.
  Lemma rg_map_err {B} E f (p : prog W (res B)) : rg E p (fun _ => True) -> rg E (map_err f p) (fun _ => True).
  Proof. intros H. unfold map_err. apply rg_bind. eapply rg_mono; [|exact H]. cbn [rg]. auto. Qed.
  Lemma rg_get_bytes E e n : rg E (get_bytes e n : prog W _) (fun r => forall b, r = Ok b -> blen b = n).
  Proof.
    unfold get_bytes, act. cbn [rg]. intros w HE Hf. right. split; [exact HE|]. intros b Hb. cbn [fst] in Hb.
    unfold draw in Hb. destruct (tape e _ n); [|discriminate]. destruct (N.eqb_spec (blen b0) n); congruence.
  Qed.
  Lemma rg_time E e : rg E (time_now e : prog W _) (fun _ => True).
  Proof. unfold time_now, act. cbn [rg]. auto. Qed.

  Lemma fmono_bind {B C} (p : prog W B) (k : B -> prog W C) : fmono p -> (forall a, fmono (k a)) -> fmono (bind p k).
  Proof. induction p as [a|X f c IH]; cbn [fmono bind]; [auto|]. intros H Hk w. destruct (H w) as [H1 H2]. auto. Qed.
  Lemma fmono_bindR {B C} (p : prog W (res B)) (k : B -> prog W (res C)) : fmono p -> (forall a, fmono (k a)) -> fmono (bindR p k).
  Proof. intros Hp Hk. unfold bindR. apply fmono_bind; [exact Hp|]. intros [a|x|]; cbn [fmono]; auto. Qed.
  Lemma fmono_onio {B} (p : prog S B) : fmono (on_io p : prog W B).
  Proof. induction p as [a|X f k IH]; cbn [on_io fmono]; [auto|]. intros w. destruct (f (w_io w)) as [x s]. cbn [fst snd]. split; [auto|apply IH]. Qed.
  Lemma fmono_map_err {B} f (p : prog W (res B)) : fmono p -> fmono (map_err f p).
  Proof. intros H. unfold map_err. apply fmono_bind; [exact H|]. cbn [fmono]. auto. Qed.
  Lemma fmono_get_bytes e n : fmono (get_bytes e n : prog W _).
  Proof. cbn. auto. Qed.
  Lemma fmono_time e : fmono (time_now e : prog W _).
  Proof. cbn. auto. Qed.
  Lemma fmono_lift {B} (r : res B) : fmono (lift r : prog W (res B)).
  Proof. cbn. auto. Qed.

  Lemma leaves_bind {B C} (P : C -> Prop) (p : prog W B) (k : B -> prog W C) : (forall a, leaves P (k a)) -> leaves P (bind p k).
  Proof. intros H. induction p as [a|X f c IH]; cbn [leaves bind]; auto. Qed.
  Lemma leaves_bindR {B C} (P : res C -> Prop) (p : prog W (res B)) (k : B -> prog W (res C)) :
    (forall x, P (Err x)) -> P Panic -> (forall a, leaves P (k a)) -> leaves P (bindR p k).
  Proof. intros H1 H2 H. unfold bindR. apply leaves_bind. intros [a|x|]; cbn [leaves]; auto. Qed.
End Sched.
