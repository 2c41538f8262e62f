(** Concrete concurrent index calls: a case of C45, and what is lost without its hypotheses. *)
From Coq Require Import ZifyN ZifyNat.
From stdpp Require Import gmap.
From Verif Require Import Bytes Go Types World Io IoSpec IoProofs Id Data D1 D1Proofs Spec SpecProofs Demo
  Index IndexSpec IndexConcSpec IndexProofs IndexHist IndexFacts IndexDemo IndexConc.
Local Open Scope bool_scope.
Local Open Scope N_scope.

(** ** Playing a script *)
Inductive play_op := PCall (c : ix_call) | PSteps (t n : nat) | PReply (t : nat).
Section Play.
  Context {S I : Type} (e : env) (v : view S).
  Notation W := (world S I).
  Context (idp : bytes -> prog W (res identity)) (iek : bytes) (fuel : nat) (io : provider S).
  Notation pool := (list (prog W (res ix_reply))).
  Fixpoint play_steps (n t : nat) (pl : pool) (w : W) : pool * W :=
    match n with
    | O => (pl, w)
    | Datatypes.S n => match pl !! t with
                       | Some (Step f k) => let '(x, w1) := f w in play_steps n t (<[t := k x]> pl) w1
                       | _ => (pl, w)
                       end
    end.
  Fixpoint play_script (l : list play_op) (pl : pool) (w : W) : list ix_obs * (pool * W) :=
    match l with
    | [] => ([], (pl, w))
    | PCall c :: l => let '(tr, z) := play_script l (pl ++ [ix_do e io idp iek fuel c]) w in (OCall c :: tr, z)
    | PSteps t n :: l => let '(pl1, w1) := play_steps n t pl w in play_script l pl1 w1
    | PReply t :: l => match pl !! t with
                       | Some (Ret r) => let '(tr, z) := play_script l pl w in (OReply t r :: tr, z)
                       | _ => play_script l pl w
                       end
    end.
  Notation conc := (ix_conc e v idp iek fuel io).
  Lemma play_steps_conc n t : forall pl (w : W) tr pl' w', conc (fst (play_steps n t pl w)) (snd (play_steps n t pl w)) tr pl' w' -> conc pl w tr pl' w'.
  Proof.
    induction n as [|n IH]; intros pl w tr pl' w' H; cbn [play_steps] in H; [exact H|].
    destruct (pl !! t) as [[a|X f k]|] eqn:Et; try exact H.
    destruct (f w) as [x w1] eqn:Ef. eapply ic_step; [exact Et|]. rewrite Ef. cbn [fst snd]. apply IH. exact H.
  Qed.
  Lemma play_conc l : forall pl (w : W) tr pl' w', play_script l pl w = (tr, (pl', w')) -> conc pl w tr pl' w'.
  Proof.
    induction l as [|o l IH]; intros pl w tr pl' w' H; cbn [play_script] in H; [injection H as <- <- <-; constructor|].
    destruct o as [c|t n|t].
    - destruct (play_script l _ w) as [tr1 z] eqn:E. injection H as <- ->. apply ic_call. eauto.
    - destruct (play_steps n t pl w) as [pl1 w1] eqn:E. apply (play_steps_conc n t). rewrite E. cbn [fst snd]. eauto.
    - destruct (pl !! t) as [[r|X f k]|] eqn:Et; try (now apply IH).
      destruct (play_script l pl w) as [tr1 z] eqn:E. injection H as <- ->. eapply ic_reply; eauto.
  Qed.
End Play.

(** ** Comparing observations *)
Fixpoint ids_eqb (l l' : list bytes) : bool :=
  match l, l' with [], [] => true | x :: l, y :: l' => bytes_eqb x y && ids_eqb l l' | _, _ => false end.
Definition reply_eqb (r r' : res ix_reply) : bool :=
  match r, r' with
  | Ok IRUnit, Ok IRUnit => true
  | Ok (IRIds l), Ok (IRIds l') => ids_eqb l l'
  | Err EIxNodeAlreadyExists, Err EIxNodeAlreadyExists => true
  | _, _ => false
  end.
Definition call_eqb (c c' : ix_call) : bool :=
  match c, c' with
  | IAdd t k y, IAdd t' k' y' => bytes_eqb t t' && bytes_eqb k k' && bytes_eqb y y'
  | ISearch t k, ISearch t' k' => bytes_eqb t t' && bytes_eqb k k'
  | IDelete t k y, IDelete t' k' y' => bytes_eqb t t' && bytes_eqb k k' && bytes_eqb y y'
  | _, _ => false
  end.
Fixpoint obs_eqb (tr tr' : list ix_obs) : bool :=
  match tr, tr' with
  | [], [] => true
  | OCall c :: tr, OCall c' :: tr' => call_eqb c c' && obs_eqb tr tr'
  | OReply t r :: tr, OReply t' r' :: tr' => Nat.eqb t t' && reply_eqb r r' && obs_eqb tr tr'
  | _, _ => false
  end.
Lemma ids_eqb_eq l : forall l', ids_eqb l l' = true -> l = l'.
Proof.
  induction l as [|x l IH]; intros [|y l'] H; try discriminate; [reflexivity|]. cbn [ids_eqb] in H. apply Bool.andb_true_iff in H as [H1 H2].
  apply bytes_eqb_eq in H1. subst. f_equal. auto.
Qed.
Lemma call_eqb_eq c c' : call_eqb c c' = true -> c = c'.
Proof.
  destruct c, c'; cbn [call_eqb]; intros H; try discriminate; repeat (apply Bool.andb_true_iff in H as [H ?]);
  repeat match goal with K : bytes_eqb _ _ = true |- _ => apply bytes_eqb_eq in K; subst end; reflexivity.
Qed.
Lemma reply_eqb_eq r r' : reply_eqb r r' = true -> r = r'.
Proof.
  destruct r as [[|l]|x|], r' as [[|l']|x'|]; cbn [reply_eqb]; intros H; try discriminate; try reflexivity.
  - now apply ids_eqb_eq in H as ->.
  - destruct x; discriminate.
  - destruct x; discriminate.
  - destruct x; try discriminate; destruct x'; try discriminate; reflexivity.
  - destruct x; discriminate.
Qed.
Lemma obs_eqb_eq tr : forall tr', obs_eqb tr tr' = true -> tr = tr'.
Proof.
  induction tr as [|o tr IH]; intros [|o' tr'] H; cbn [obs_eqb] in H; [reflexivity|discriminate|destruct o; discriminate|].
  destruct o as [c|t r], o' as [c'|t' r']; try discriminate.
  - apply Bool.andb_true_iff in H as [H1 H2]. apply call_eqb_eq in H1. subst. f_equal. auto.
  - apply Bool.andb_true_iff in H as [H1 H2]. apply Bool.andb_true_iff in H1 as [H0 H1]. apply Nat.eqb_eq in H0. apply reply_eqb_eq in H1. subst. f_equal. auto.
Qed.
Lemma play_test {S I} (e : env) (v : view S) (idp : bytes -> prog (world S I) (res identity)) iek fuel io l w tr :
  obs_eqb (fst (play_script e idp iek fuel io l [] w)) tr = true -> exists pool' w', ix_conc e v idp iek fuel io [] w tr pool' w'.
Proof.
  intros H. apply obs_eqb_eq in H. destruct (play_script e idp iek fuel io l [] w) as [tr1 [pl' w']] eqn:E. cbn [fst] in H. subst tr1.
  exists pl', w'. eapply play_conc; exact E.
Qed.

(** ** A case of C45: one of two overlapping Adds fails, and a later Search finds the other *)
Notation add1 := (IAdd tok_alice dog id1).
Notation add2 := (IAdd tok_alice dog id2).
Notation look := (ISearch tok_alice dog).
Definition race_tr : list ix_obs :=
  [OCall add1; OCall add2; OReply 1 (Ok IRUnit); OReply 0 (Err EIxNodeAlreadyExists); OCall look; OReply 2 (Ok (IRIds [id2]))].
Lemma bolt_race_test : obs_eqb (fst (play_script demo_env demo_idp demo_iek 9 Bolt
  [PCall add1; PSteps 0 2; PCall add2; PSteps 1 9; PReply 1; PSteps 0 9; PReply 0; PCall look; PSteps 2 9; PReply 2] [] demo_w)) race_tr = true.
Proof. vm_cast_no_check (eq_refl true). Qed.
Lemma demo_bolt_fresh : ix_fresh bolt_view demo_w.
Proof.
  split; [|intros id; apply lookup_empty]. intros k H. pose proof (lookup_empty (M := gmap bytes) (A := bytes) k) as E.
  discriminate (eq_trans (eq_sym E) H).
Qed.
Lemma demo_linearizable : exists pool w2,
  io_spec False bolt_view Bolt /\ atomic_get_put bolt_view Bolt /\ (forall tok, only_reads bolt_view (demo_idp tok : prog DW _)) /\
  ix_new (Ok demo_ix_keys) = Ok demo_iek /\ ix_fresh bolt_view demo_w /\ ix_run demo_env bolt_view demo_idp demo_iek 9 Bolt demo_w [] demo_w /\
  ix_conc demo_env bolt_view demo_idp demo_iek 9 Bolt [] demo_w race_tr pool w2 /\
  (forall c, In c (obs_calls race_tr) -> forall tok kw y, c <> IDelete tok kw y) /\
  labels_differ demo_iek (map ix_keyword (obs_calls race_tr)) (N.of_nat (count_adds (obs_calls race_tr))).
Proof.
  destruct (play_test demo_env bolt_view demo_idp demo_iek 9 Bolt _ demo_w _ bolt_race_test) as (pool & w2 & H). exists pool, w2.
  split; [exact (bolt_spec False)|]. split; [exact bolt_atomic|]. split; [intros tok; exact Logic.I|]. split; [reflexivity|].
  split; [exact demo_bolt_fresh|]. split; [apply ir_nil|]. split; [exact H|]. split.
  - intros c Hc. unfold race_tr in Hc. cbn [obs_calls In] in Hc. destruct Hc as [<-|[<-|[<-|[]]]]; discriminate.
  - apply (differ_incl _ _ _ _ _ demo_differ); [unfold race_tr; cbn [obs_calls map ix_keyword In]; tauto|unfold race_tr; cbn [obs_calls]; unfold count_adds; cbn [List.filter length]; lia].
Qed.

(** ** Mem: both Adds succeed, one identifier is gone *)
Definition lost_tr : list ix_obs :=
  [OCall add1; OCall add2; OReply 0 (Ok IRUnit); OReply 1 (Ok IRUnit); OCall look; OReply 2 (Ok (IRIds [id2]))].
Lemma mem_race_test : obs_eqb (fst (play_script demo_env demo_idp demo_iek 9 Mem
  [PCall add1; PSteps 0 5; PCall add2; PSteps 1 5; PSteps 0 9; PReply 0; PSteps 1 9; PReply 1; PCall look; PSteps 2 9; PReply 2] [] demo_w)) lost_tr = true.
Proof. vm_cast_no_check (eq_refl true). Qed.
Lemma mem_race : exists pool w2, ix_conc demo_env mem_view demo_idp demo_iek 9 Mem [] demo_w lost_tr pool w2.
Proof. exact (play_test demo_env mem_view demo_idp demo_iek 9 Mem _ demo_w _ mem_race_test). Qed.
Lemma lost_not_linear ds m' : ~ ix_linearizes index_empty lost_tr ds m'.
Proof.
  intros H. assert (A : In id1 [id2]); [|destruct A as [A|[]]; discriminate A].
  eapply (linearizes_found _ lost_tr ds m' [OCall add1; OCall add2; OReply 0 (Ok IRUnit); OReply 1 (Ok IRUnit)] _ 0 tok_alice dog id1 IRUnit tok_alice [id2] H).
  - intros tok Hc. unfold lost_tr in Hc. cbn [obs_calls In] in Hc. destruct Hc as [E|[E|[E|[]]]]; discriminate E.
  - reflexivity.
  - reflexivity.
  - cbn [In]. auto 10.
  - cbn [obs_calls length In]. auto 10.
Qed.

(** ** Delete and Add: an Add that succeeds while a Delete removes the last node is lost *)
Definition drop_tr : list ix_obs :=
  [OCall add1; OReply 0 (Ok IRUnit); OCall (IDelete tok_alice dog id1); OCall add2; OReply 2 (Ok IRUnit); OReply 1 (Ok IRUnit);
   OCall look; OReply 3 (Ok (IRIds []))].
Lemma delete_race_test : obs_eqb (fst (play_script demo_env demo_idp demo_iek 9 Bolt
  [PCall add1; PSteps 0 9; PReply 0; PCall (IDelete tok_alice dog id1); PSteps 1 3; PCall add2; PSteps 2 9; PReply 2; PSteps 1 9; PReply 1;
   PCall look; PSteps 3 9; PReply 3] [] demo_w)) drop_tr = true.
Proof. vm_cast_no_check (eq_refl true). Qed.
Lemma delete_race : exists pool w2, ix_conc demo_env bolt_view demo_idp demo_iek 9 Bolt [] demo_w drop_tr pool w2.
Proof. exact (play_test demo_env bolt_view demo_idp demo_iek 9 Bolt _ demo_w _ delete_race_test). Qed.
Lemma drop_not_linear ds m' : ~ ix_linearizes index_empty drop_tr ds m'.
Proof.
  intros H. assert (A : In id2 []); [|destruct A].
  eapply (linearizes_found _ drop_tr ds m' [OCall add1; OReply 0 (Ok IRUnit); OCall (IDelete tok_alice dog id1); OCall add2; OReply 2 (Ok IRUnit); OReply 1 (Ok IRUnit)]
    _ 2 tok_alice dog id2 IRUnit tok_alice [] H).
  - intros tok Hc. unfold drop_tr in Hc. cbn [obs_calls In] in Hc. destruct Hc as [E|[E|[E|[E|[]]]]]; discriminate E.
  - reflexivity.
  - reflexivity.
  - cbn [In]. auto 10.
  - cbn [obs_calls length In]. auto 10.
Qed.
