(** Programs that log, step by step. *)
From stdpp Require Import gmap.
From Verif Require Import Bytes Go World Slices SlicesSpec SlicesProofs Threads Log LogSpec.

Section Log.
  Context {S I : Type} (txt : bytes -> bytes) (room : nat -> list byte).
  Notation W := (world S I).
  Notation LW := (logs * world S I)%type.
  Notation ent := (option logger * list (bytes * bytes))%type.

  Section Call.
    Context (who : nat) (okl : list (bytes * bytes) -> Prop) (okd : detail -> Prop).

    (** [p] does what [q] does and logs; [G] lists the loggers in scope, innermost first, with their fields. *)
    Inductive traced {A B} (Post : A -> B -> list ent -> Prop) : list ent -> prog LW A -> prog W B -> Prop :=
    | tr_ret G a b : Post a b G -> traced Post G (Ret a) (Ret b)
    | tr_world G X (f : W -> X * W) k k' : (forall w, traced Post G (k (fst (f w))) (k' (fst (f w)))) ->
        traced Post G (Step (fun lw => let '(x, w) := f (snd lw) in (x, (fst lw, w))) k) (Step f k')
    | tr_say G1 lg fs G2 m d k q : lg_debug lg = true -> okl fs -> okd d -> traced Post (G1 ++ (Some lg, fs) :: G2) (k tt) q ->
        traced Post (G1 ++ (Some lg, fs) :: G2) (Step (say_step who lg m d) k) q
    | tr_field G1 lg fs G2 f k q : (forall lg', traced Post ((lg', fs ++ [f]) :: (Some lg, fs) :: G2) (k lg') q) ->
        traced Post (G1 ++ (Some lg, fs) :: G2) (Step (field_step txt room lg f) k) q
    | tr_drop G1 G p q : traced Post G p q -> traced Post (G1 ++ G) p q
    | tr_none G fs p q : traced Post ((None, fs) :: G) p q -> traced Post G p q.

    Lemma traced_mono {A B} (P1 P2 : A -> B -> list ent -> Prop) G p q :
      (forall a b G1, P1 a b G1 -> P2 a b G1) -> traced P1 G p q -> traced P2 G p q.
    Proof. intros H T. induction T; [apply tr_ret|apply tr_world|apply tr_say|apply tr_field|apply tr_drop|eapply tr_none]; eauto. Qed.
    Lemma traced_bind {A B A' B'} (P1 : A -> B -> list ent -> Prop) (P2 : A' -> B' -> list ent -> Prop) G p q k k' :
      traced P1 G p q -> (forall a b G1, may q b -> P1 a b G1 -> traced P2 G1 (k a) (k' b)) -> traced P2 G (bind p k) (bind q k').
    Proof.
      intros T. induction T; intros H'; cbn [bind].
      - apply H'; [constructor|assumption].
      - apply (tr_world P2). intros w. apply H0. intros. apply H'; [|assumption]. eapply may_step; eauto.
      - apply tr_say; auto.
      - apply tr_field. intros lg'. apply H0. auto.
      - apply tr_drop. auto.
      - eapply tr_none. eauto.
    Qed.
    (** The loggers that were in scope still are. *)
    Definition keeps {A} (G : list ent) (a b : A) (G' : list ent) : Prop := a = b /\ exists G1, G' = G1 ++ G.
    Lemma traced_seq {A A' B'} (P2 : A' -> B' -> list ent -> Prop) G (p : prog LW A) q k k' :
      traced (keeps G) G p q -> (forall a, may q a -> traced P2 G (k a) (k' a)) -> traced P2 G (bind p k) (bind q k').
    Proof. intros T H. eapply traced_bind; [exact T|]. intros a b G1 M (-> & G2 & ->). apply tr_drop. auto. Qed.
    Lemma traced_seqR {A A' B'} (P2 : res A' -> res B' -> list ent -> Prop) G (p : prog LW (res A)) q k k' :
      traced (keeps G) G p q -> (forall a, may q (Ok a) -> traced P2 G (k a) (k' a)) ->
      (forall x, may q (Err x) -> P2 (Err x) (Err x) G) -> P2 Panic Panic G -> traced P2 G (bindR p k) (bindR q k').
    Proof. intros T H HE HP. unfold bindR. eapply traced_seq; [exact T|]. intros [a|x|] M; [auto|apply tr_ret; auto..]. Qed.
    Lemma traced_snd {A} G (q : prog W A) : traced (keeps G) G (on_snd q) q.
    Proof.
      induction q as [a|X f k IH]; cbn [on_snd].
      - apply tr_ret. split; [reflexivity|]. now exists [].
      - apply (tr_world _ G X f (fun x => on_snd (k x))). intros w. apply IH.
    Qed.
    Lemma keeps_refl {A} G (a : A) : keeps G a a G.
    Proof. split; [reflexivity|]. now exists []. Qed.
    Lemma traced_ret {A} G (a : A) : traced (keeps G) G (Ret a) (Ret a).
    Proof. apply tr_ret, keeps_refl. Qed.
    Lemma traced_map_err {A} G f (p : prog LW (res A)) q : traced (keeps G) G p q -> traced (keeps G) G (map_err f p) (map_err f q).
    Proof. intros T. unfold map_err. eapply traced_seq; [exact T|]. intros. apply traced_ret. Qed.
    (** A line. *)
    Lemma traced_say {A B} (P : A -> B -> list ent -> Prop) ctx fs G m d k q : okl fs -> okd d ->
      traced P ((ctx, fs) :: G) (k tt) q -> traced P ((ctx, fs) :: G) (bind (say who ctx m d) k) q.
    Proof.
      intros O D T. destruct ctx as [lg|]; cbn [say bind]; [|exact T]. destruct (lg_debug lg) eqn:E; cbn [bind]; [|exact T].
      apply (tr_say P []); assumption.
    Qed.
    (** A field. *)
    Lemma traced_field {A B} (P : A -> B -> list ent -> Prop) ctx fs G key v k q :
      (forall lg, traced P ((lg, fs ++ [(key, v)]) :: (ctx, fs) :: G) (k lg) q) ->
      traced P ((ctx, fs) :: G) (bind (with_field txt room ctx key v) k) q.
    Proof.
      intros T. destruct ctx as [lg|]; cbn [with_field bind].
      - apply (tr_field P []). exact T.
      - eapply tr_none. apply T.
    Qed.
  End Call.

  Implicit Types (h : list (list byte)) (own : nat -> option nat) (G : list ent).
  Definition render (b : bytes) (fs : list (bytes * bytes)) : bytes := fold_left (add_field txt) fs b.
  (** A logger in scope of the call [t]: its context is what it should be, and it lies in an array of the
      call's own, or has no room. *)
  Definition good own (t : nat) (b : bytes * bool) h (x : ent) : Prop :=
    match x with
    | (None, _) => True
    | (Some lg, fs) =>
        sl_ok h (lg_ctx lg) /\ sl_arr (lg_ctx lg) < length h /\ contents h (lg_ctx lg) = render (fst b) fs /\ lg_debug lg = snd b /\
        (own (sl_arr (lg_ctx lg)) = Some t \/ (own (sl_arr (lg_ctx lg)) = None /\ sl_full (lg_ctx lg)))
    end.
  Definition above (x y : ent) : Prop :=
    match fst x, fst y with
    | Some a, Some b => sl_arr (lg_ctx a) = sl_arr (lg_ctx b) -> sl_off (lg_ctx a) = sl_off (lg_ctx b) /\ sl_len (lg_ctx b) <= sl_len (lg_ctx a)
    | _, _ => True
    end.
  Fixpoint nested G : Prop := match G with [] => True | x :: G' => Forall (above x) G' /\ nested G' end.
  Definition inv own t b h G : Prop := Forall (good own t b h) G /\ nested G.
  (** What a step of call [t] does to memory. *)
  Record moves own (t : nat) h own' h' : Prop := mkMoves {
    mv_len : length h <= length h';
    mv_own : forall a, a < length h -> own' a = own a;
    mv_cells : forall a, a < length h -> own a <> Some t -> cells h' a = cells h a;
    mv_in : (forall a u, own a = Some u -> a < length h) -> forall a u, own' a = Some u -> a < length h' }.

  Lemma moves_refl own t h : moves own t h own h.
  Proof. constructor; auto. Qed.
  Lemma inv_drop own t b h G1 G : inv own t b h (G1 ++ G) -> inv own t b h G.
  Proof. intros [H N]. apply List.Forall_app in H as [_ H]. split; [exact H|]. induction G1; [exact N|]. apply IHG1. apply N. Qed.
  Lemma inv_none own t b h fs G : inv own t b h G -> inv own t b h ((None, fs) :: G).
  Proof. intros [H N]. split; [constructor; [exact Logic.I|exact H]|]. split; [|exact N]. apply List.Forall_forall. intros; exact Logic.I. Qed.
  Lemma inv_other own own' t u b h h' G : u <> t -> moves own t h own' h' -> inv own u b h G -> inv own' u b h' G.
  Proof.
    intros Hu M [H N]. split; [|exact N]. eapply List.Forall_impl; [|exact H]. intros [[lg|] fs]; cbn [good]; [|auto].
    intros (K & Hl & E & Eb & O). pose proof (mv_own _ _ _ _ _ M _ Hl) as Eo. pose proof (mv_len _ _ _ _ _ M).
    assert (Ec : cells h' (sl_arr (lg_ctx lg)) = cells h (sl_arr (lg_ctx lg))).
    { apply (mv_cells _ _ _ _ _ M _ Hl). destruct O as [O|[O _]]; congruence. }
    split; [|split; [lia|split; [|split; [exact Eb|]]]].
    - destruct K as [K1 K2]. split; [exact K1|]. now rewrite Ec.
    - now rewrite (contents_cells _ _ _ Ec).
    - now rewrite Eo.
  Qed.
  Lemma field_text_pos l k v : 0 < length (field_text txt l k v).
  Proof. unfold field_text. rewrite !app_length. cbn [length]. lia. Qed.
  Lemma inv_field own t b h G lg fs f s h' :
    inv own t b h ((Some lg, fs) :: G) ->
    sl_append (room (sl_len (lg_ctx lg))) h (lg_ctx lg) (field_text txt (contents h (lg_ctx lg)) (fst f) (snd f)) = (s, h') ->
    exists own', moves own t h own' h' /\ inv own' t b h' ((Some (mkLogger s (lg_debug lg)), fs ++ [f]) :: (Some lg, fs) :: G).
  Proof.
    intros [H N] E. pose proof H as H0. apply List.Forall_cons_iff in H0 as [(K & Hl & Ec & Eb & O) HG]. destruct N as [Ab N].
    set (xs := field_text txt _ _ _) in *. assert (Hx : 0 < length xs) by apply field_text_pos.
    pose proof (append_contents _ _ _ _ _ _ K E) as [Ec' K'].
    assert (Er : contents h' s = render (fst b) (fs ++ [f])).
    { rewrite Ec'. unfold render. rewrite fold_left_app. cbn [fold_left]. unfold add_field at 1. fold (render (fst b) fs). rewrite <- Ec. reflexivity. }
    pose proof (oc_append _ _ _ _ _ _ K E) as OC.
    assert (Low : forall y, In y ((Some lg, fs) :: G) -> above (Some lg, fs) y).
    { intros y [<-|Hy]; [intros _; cbn; auto|]. rewrite List.Forall_forall in Ab. auto. }
    assert (Keep : forall y, In y ((Some lg, fs) :: G) -> good own t b h y -> good own t b h' y).
    { intros [[ly|] fy] Hy; cbn [good]; [|auto]. intros (Ky & Hly & Ecy & Eby & Oy). pose proof (Low _ Hy) as A. cbn in A.
      split; [eapply oc_ok; eauto|]. split; [destruct OC; lia|]. split; [|split; [exact Eby|exact Oy]]. rewrite <- Ecy. eapply oc_contents; [exact OC|exact Ky|].
      intros i Hi (E1 & E2 & _). symmetry in E1. destruct (A E1). lia. }
    unfold sl_append in E. destruct (Nat.leb_spec (sl_len (lg_ctx lg) + length xs) (sl_cap (lg_ctx lg))) as [Le|Le].
    - injection E as Es Eh. exists own. assert (Ot : own (sl_arr (lg_ctx lg)) = Some t).
      { destruct O as [O|[_ F]]; [exact O|]. unfold sl_full in F. lia. }
      assert (Eln : length h' = length h) by (rewrite <- Eh; apply sl_write_length).
      split.
      + constructor; [lia|auto| |intros Hin a u Ha; rewrite Eln; eauto]. intros a Ha Na. rewrite <- Eh. apply cells_write_ne. congruence.
      + split; [constructor|].
        * cbn [good lg_ctx]. split; [exact K'|]. split; [rewrite <- Es; cbn; lia|]. split; [exact Er|]. split; [exact Eb|]. left. rewrite <- Es. exact Ot.
        * apply List.Forall_forall. intros y Hy. apply Keep; [exact Hy|]. rewrite List.Forall_forall in H. auto.
        * split; [|split; [exact Ab|exact N]]. apply List.Forall_forall. intros [[ly|] fy] Hy; [|exact Logic.I]. pose proof (Low _ Hy) as A. cbn in A |- *.
          rewrite <- Es. cbn [sl_arr sl_off sl_len]. intros E1. destruct (A E1). lia.
    - unfold sl_make in E. injection E as Es Eh. exists (fun a => if decide (a = length h) then Some t else own a).
      assert (Eln : length h' = Datatypes.S (length h)) by (rewrite <- Eh, app_length; cbn; lia).
      assert (Own : forall a, a < length h -> (if decide (a = length h) then Some t else own a) = own a) by (intros a Ha; destruct (decide _); [lia|reflexivity]).
      split.
      + constructor; [lia|exact Own| |].
        * intros a Ha _. rewrite <- Eh. now apply cells_app.
        * intros Hin a u. destruct (decide _) as [->|]; intros Ha; [lia|]. apply Hin in Ha. lia.
      + split; [constructor|].
        * cbn [good lg_ctx]. split; [exact K'|]. split; [rewrite <- Es; cbn; lia|]. split; [exact Er|]. split; [exact Eb|]. left. rewrite <- Es. cbn. now destruct (decide _).
        * apply List.Forall_forall. intros y Hy. assert (Gy : good own t b h' y) by (apply Keep; [exact Hy|]; rewrite List.Forall_forall in H; auto).
          rewrite List.Forall_forall in H. specialize (H _ Hy). destruct y as [[ly|] fy]; [|exact Logic.I]. cbn [good] in *.
          destruct H as (_ & Hly & _). rewrite (Own _ Hly). exact Gy.
        * split; [|split; [exact Ab|exact N]]. apply List.Forall_forall. intros [[ly|] fy] Hy; [|exact Logic.I]. cbn. rewrite <- Es. cbn [sl_arr].
          rewrite List.Forall_forall in H. specialize (H _ Hy). cbn in H. lia.
  Qed.

  (** One step of the plain program, or none. *)
  Definition qstep {B} (q : prog W B) (w : W) (q' : prog W B) (w' : W) : Prop :=
    (q' = q /\ w' = w) \/ match q with Ret _ => False | Step g k' => q' = k' (fst (g w)) /\ w' = snd (g w) end.
  Lemma traced_step {A B} who okl okd b (Post : A -> B -> list ent -> Prop) G p q : traced who okl okd Post G p q ->
    match p with
    | Ret _ => True
    | Step f k => forall own g w, inv own who b (g_heap g) G ->
        exists own' G' q', qstep q w q' (snd (snd (f (g, w)))) /\ traced who okl okd Post G' (k (fst (f (g, w)))) q' /\
          moves own who (g_heap g) own' (g_heap (fst (snd (f (g, w))))) /\ inv own' who b (g_heap (fst (snd (f (g, w))))) G' /\
          (g_lines (fst (snd (f (g, w)))) = g_lines g \/
           exists fs m d, g_lines (fst (snd (f (g, w)))) = mkLine who (render (fst b) fs) m d :: g_lines g /\ snd b = true /\ okl fs /\ okd d)
    end.
  Proof.
    intros T. induction T.
    - exact Logic.I.
    - intros own g w J. exists own, G, (k' (fst (f w))). cbn [fst snd]. specialize (H w). destruct (f w) as [x w'] eqn:Ef. cbn [fst snd] in *.
      split; [right; rewrite Ef; auto|]. split; [assumption|]. auto using moves_refl.
    - intros own g w J. exists own, (G1 ++ (Some lg, fs) :: G2), q. cbn [say_step fst snd g_heap g_lines].
      split; [left; auto|]. split; [assumption|]. split; [apply moves_refl|]. split; [exact J|]. right. exists fs, m, d.
      apply inv_drop in J as [J _]. apply List.Forall_cons_iff in J as [(_ & _ & E & Eb & _) _].
      split; [now rewrite E|]. split; [congruence|auto].
    - intros own g w J. unfold field_step. cbn [fst snd].
      destruct (sl_append _ _ _ _) as [s h'] eqn:Ea. apply inv_drop in J. destruct (inv_field _ _ _ _ _ _ _ _ _ _ J Ea) as (own' & M & J').
      cbn [fst snd g_heap g_lines]. exists own', ((Some (mkLogger s (lg_debug lg)), fs ++ [f]) :: (Some lg, fs) :: G2), q. split; [left; auto|]. auto.
    - destruct p as [|X f k]; [exact Logic.I|]. intros own g w J. apply (IHT own g w). eapply inv_drop; eauto.
    - destruct p as [|X f k]; [exact Logic.I|]. intros own g w J. apply (IHT own g w). apply inv_none. exact J.
  Qed.
End Log.
