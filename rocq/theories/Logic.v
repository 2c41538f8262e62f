(** Reasoning about programs: what holds at every point where a run may be cut, and at its end. *)
From Verif Require Import Bytes Go World.

Fixpoint wpc {W A} (p : prog W A) (Inv : W -> Prop) (Q : A -> W -> Prop) (w : W) : Prop :=
  match p with
  | Ret a => Inv w /\ Q a w
  | Step f k => Inv w /\ wpc (k (fst (f w))) Inv Q (snd (f w))
  end.

Section Wpc.
  Context {W : Type}.
  Implicit Types (Inv : W -> Prop) (w : W).

  Lemma wpc_cut {A} (p : prog W A) Inv Q w : wpc p Inv Q w -> forall n, Inv (snd (run_n n p w)).
  Proof.
    revert w. induction p as [a|X f k IH]; intros w H n; cbn [wpc] in H.
    - destruct n; exact (proj1 H).
    - destruct n as [|n]; [exact (proj1 H)|]. cbn [run_n]. destruct H as [_ H].
      destruct (f w) as [x w']. apply (IH x _ H).
  Qed.
  Lemma wpc_end {A} (p : prog W A) Inv Q w : wpc p Inv Q w -> Q (fst (run p w)) (snd (run p w)).
  Proof.
    revert w. induction p as [a|X f k IH]; intros w H; cbn [wpc] in H.
    - exact (proj2 H).
    - cbn [run]. destruct H as [_ H]. destruct (f w) as [x w']. apply (IH x _ H).
  Qed.
  Lemma wpc_end_inv {A} (p : prog W A) Inv Q w : wpc p Inv Q w -> Inv (snd (run p w)).
  Proof.
    revert w. induction p as [a|X f k IH]; intros w H; cbn [wpc] in H.
    - exact (proj1 H).
    - cbn [run]. destruct H as [_ H]. destruct (f w) as [x w']. apply (IH x _ H).
  Qed.
  Lemma wpc_mono {A} (p : prog W A) (Inv Inv' : W -> Prop) (Q Q' : A -> W -> Prop) w :
    (forall w', Inv w' -> Inv' w') -> (forall a w', Inv w' -> Q a w' -> Q' a w') ->
    wpc p Inv Q w -> wpc p Inv' Q' w.
  Proof.
    intros HI HQ. revert w. induction p as [a|X f k IH]; intros w H; cbn [wpc] in *.
    - destruct H. auto.
    - destruct H as [H1 H2]. split; [auto|]. now apply IH.
  Qed.
  Lemma wpc_bind {A B} (p : prog W A) (k : A -> prog W B) Inv Q w :
    wpc p Inv (fun a w' => wpc (k a) Inv Q w') w -> wpc (bind p k) Inv Q w.
  Proof.
    revert w. induction p as [a|X f c IH]; intros w H; cbn [wpc bind] in *.
    - exact (proj2 H).
    - destruct H as [H1 H2]. split; [exact H1|]. now apply IH.
  Qed.
  Lemma wpc_bindR {A B} (p : prog W (res A)) (k : A -> prog W (res B)) Inv Q w :
    wpc p Inv (fun r w' => match r with
                           | Ok a => wpc (k a) Inv Q w'
                           | Err x => Q (Err x) w'
                           | Panic => Q Panic w' end) w ->
    wpc (bindR p k) Inv Q w.
  Proof.
    intros H. unfold bindR. apply wpc_bind. eapply wpc_mono; [..|exact H]; [auto|].
    intros [a|x|] w' HI HQ; [exact HQ|split; assumption..].
  Qed.
  Lemma wpc_map_err {A} f (p : prog W (res A)) Inv Q w :
    wpc p Inv (fun r w' => Q (match r with Ok a => Ok a | Err x => Err (f x) | Panic => Panic end) w') w ->
    wpc (map_err f p) Inv Q w.
  Proof.
    intros H. unfold map_err. apply wpc_bind. eapply wpc_mono; [..|exact H]; [auto|].
    intros r w' HI HQ. split; assumption.
  Qed.
  Lemma wpc_ret {A} (a : A) Inv (Q : A -> W -> Prop) w : Inv w -> Q a w -> wpc (Ret a) Inv Q w.
  Proof. intros. split; assumption. Qed.
  Lemma wpc_act {X} (f : W -> X * W) Inv (Q : X -> W -> Prop) w :
    Inv w -> Inv (snd (f w)) -> Q (fst (f w)) (snd (f w)) -> wpc (act f) Inv Q w.
  Proof. intros. cbn. auto. Qed.
  Lemma wpc_run {A} (p : prog W A) Inv Q w : wpc p Inv Q w -> wpc p Inv (fun a w' => run p w = (a, w') /\ Q a w') w.
  Proof.
    revert w. induction p as [a|X f k IH]; intros w H; cbn [wpc run] in *.
    - destruct H as [H1 H2]. auto.
    - destruct H as [H1 H2]. split; [exact H1|]. specialize (IH _ _ H2). destruct (f w) as [x w']. exact IH.
  Qed.
  (** Any program satisfies the trivial specification. *)
  Lemma wpc_true {A} (p : prog W A) w : wpc p (fun _ => True) (fun a w' => run p w = (a, w')) w.
  Proof.
    revert w. induction p as [a|X f k IH]; intros w; cbn [wpc run]; [auto|].
    split; [auto|]. specialize (IH (fst (f w)) (snd (f w))). destruct (f w). exact IH.
  Qed.
  Lemma wpc_and {A} (p : prog W A) I1 I2 Q1 Q2 w : wpc p I1 Q1 w -> wpc p I2 Q2 w ->
    wpc p (fun w' => I1 w' /\ I2 w') (fun a w' => Q1 a w' /\ Q2 a w') w.
  Proof.
    revert w. induction p as [a|X f k IH]; intros w; cbn [wpc]; [tauto|].
    intros [? ?] [? ?]. split; [tauto|]. now apply IH.
  Qed.
  Lemma wpc_of_run {A} (p : prog W A) Inv (Q : A -> W -> Prop) w :
    (forall n, Inv (snd (run_n n p w))) -> Q (fst (run p w)) (snd (run p w)) -> wpc p Inv Q w.
  Proof.
    revert w. induction p as [a|X f k IH]; intros w HI HQ; cbn [wpc].
    - split; [apply (HI O)|exact HQ].
    - split; [apply (HI O)|]. apply IH.
      + intros n. specialize (HI (S n)). cbn [run_n] in HI. now destruct (f w).
      + cbn [run] in HQ. now destruct (f w).
  Qed.
End Wpc.

Lemma wpc_on_io {S I A} (p : prog S A) Inv Q (w : world S I) :
  wpc p Inv Q (w_io w) ->
  wpc (on_io p) (fun w' => exists s, w' = set_io w s /\ Inv s) (fun a w' => exists s, w' = set_io w s /\ Q a s) w.
Proof.
  revert w. induction p as [a|X f k IH]; intros w H; cbn [wpc on_io] in *.
  - split; exists (w_io w); (split; [now destruct w|apply H]).
  - destruct H as [H1 H2]. split; [exists (w_io w); split; [now destruct w|exact H1]|].
    destruct (f (w_io w)) as [x s]. cbn [fst snd] in *.
    specialize (IH x (set_io w s) H2). exact IH.
Qed.
