(** Overlapping calls of all three kinds: what the three runs give, and how their orders fit together. *)
From Coq Require Import ZifyN ZifyNat.
From stdpp Require Import gmap.
From Verif Require Import Bytes Go Uuid Time Types World IoSpec Id Data D1 Spec D1ConcSpec D1Conc Standalone StandaloneSpec SaConcSpec
  Index IndexSpec IndexConcSpec IndexOwnSpec Foot Lib LibSpec LibHist LibConcSpec LibTouch LibConc LibConcParts.
Local Open Scope bool_scope.
Local Open Scope N_scope.

(** ** Lists made up of at most one piece for each element *)
Lemma pieces_split {A B} (f : A -> list B) (Hf : forall a, (length (f a) <= 1)%nat) (l : list A) (b1 b2 : list B) :
  flat_map f l = b1 ++ b2 -> exists l1 l2, l = l1 ++ l2 /\ flat_map f l1 = b1 /\ flat_map f l2 = b2.
Proof.
  revert b1. induction l as [|a l IH]; intros b1 H; cbn [flat_map] in H.
  - symmetry in H. apply app_eq_nil in H as [-> ->]. exists [], []. auto.
  - destruct b1 as [|b b1]; [exists [], (a :: l); auto|]. specialize (Hf a). destruct (f a) as [|y [|z r]] eqn:E; cbn in Hf; [| |lia].
    + destruct (IH (b :: b1) H) as (l1 & l2 & -> & H1 & H2). exists (a :: l1), l2. cbn [flat_map app]. rewrite E. auto.
    + injection H as <- H. destruct (IH b1 H) as (l1 & l2 & -> & H1 & H2). exists (a :: l1), l2. cbn [flat_map app]. rewrite E, H1. auto.
Qed.
Lemma pieces_at {A B} (f : A -> list B) (Hf : forall a, (length (f a) <= 1)%nat) (l : list A) (b1 b2 : list B) b :
  flat_map f l = b1 ++ b :: b2 -> exists l1 a l2, l = l1 ++ a :: l2 /\ flat_map f l1 = b1 /\ f a = [b] /\ flat_map f l2 = b2.
Proof.
  revert b1. induction l as [|a l IH]; intros b1 H; cbn [flat_map] in H; [destruct b1; discriminate|].
  pose proof (Hf a) as Ha. destruct (f a) as [|y [|z r]] eqn:E; cbn in Ha; [| |lia].
  - destruct (IH b1 H) as (l1 & a' & l2 & -> & H1 & H2). exists (a :: l1), a', l2. cbn [flat_map app]. rewrite E. auto.
  - destruct b1 as [|b' b1]; cbn in H; injection H as <- H.
    + exists [], a, l. auto.
    + destruct (IH b1 H) as (l1 & a' & l2 & -> & H1 & H2). exists (a :: l1), a', l2. cbn [flat_map app]. rewrite E, H1. auto.
Qed.

(** ** The shape of what is observed *)
Definition xok (x0 : list xobs) (o : xobs) : Prop :=
  match o with
  | XCall _ => True
  | XKnown t r => (exists c, xcalls x0 !! t = Some c /\ forall c', c <> OnIdentity c') /\ ~ In t (known x0)
  | XReply t r =>
      match r with
      | LIdentity _ => exists c, xcalls x0 !! t = Some (OnIdentity c)
      | LObject _ => (exists c, xcalls x0 !! t = Some (OnObject c)) /\ In t (known x0)
      | LIndex _ => (exists c, xcalls x0 !! t = Some (OnIndex c)) /\ In t (known x0)
      end
  end.
Fixpoint xwf (x0 x : list xobs) : Prop := match x with [] => True | o :: x => xok x0 o /\ xwf (x0 ++ [o]) x end.
Lemma xwf_at x0 a o b : xwf x0 (a ++ o :: b) -> xok (x0 ++ a) o.
Proof.
  revert x0. induction a as [|p a IH]; intros x0 H; cbn in H; [rewrite app_nil_r; apply H|]. replace (x0 ++ p :: a) with ((x0 ++ [p]) ++ a) by now rewrite <- app_assoc.
  now apply IH.
Qed.
Lemma known_app a b : known (a ++ b) = known a ++ known b.
Proof. apply flat_map_app. Qed.
Lemma xcalls_app a b : xcalls (a ++ b) = xcalls a ++ xcalls b.
Proof. apply flat_map_app. Qed.
Lemma xwf_nodup x : forall x0, xwf x0 x -> NoDup (known x0) -> NoDup (known (x0 ++ x)).
Proof.
  induction x as [|o x IH]; intros x0 H Hn; [now rewrite app_nil_r|]. destruct H as [Ho H]. replace (x0 ++ o :: x) with ((x0 ++ [o]) ++ x) by now rewrite <- app_assoc.
  apply IH; [exact H|]. rewrite known_app. destruct o as [c|t r|t r]; cbn; rewrite ?app_nil_r; [exact Hn| |exact Hn].
  destruct Ho as [_ Ho]. apply NoDup_ListNoDup, NoDup_app. split; [now apply NoDup_ListNoDup|]. split; [|apply NoDup_singleton].
  intros y Hy Ht. apply elem_of_list_singleton in Ht as ->. apply Ho. now apply elem_of_list_In.
Qed.
Lemma known_in t x : In t (known x) <-> exists r, In (XKnown t r) x.
Proof.
  unfold known. rewrite in_flat_map. split.
  - intros ([c|t' r|t' r] & H & Hin); cbn in Hin; try contradiction. destruct Hin as [->|[]]. eauto.
  - intros [r H]. exists (XKnown t r). split; [exact H|now left].
Qed.

Section Shape.
  Context {S I : Type} (e : env) (v : view S) (io : provider S) (Hio : cell_storage v io) (Hew : entrywise v io) (L : lib) (fuel : nat).
  Notation W := (world S I).
  Notation srun := (@srun S I e v io L fuel).
  Notation thr := (@thr S I).
  Definition good (x0 : list xobs) (P : list thr) : Prop :=
    map tcall P = xcalls x0 /\ (forall t, In t (known x0) -> (t < length P)%nat) /\
    (forall t c p, P !! t = Some (TLook c p) -> ~ In t (known x0)) /\
    (forall t c p, P !! t = Some (TObj c p) -> In t (known x0)) /\ (forall t c p, P !! t = Some (TIx c p) -> In t (known x0)).
  Lemma good_at x0 P t th : good x0 P -> P !! t = Some th -> xcalls x0 !! t = Some (tcall th).
  Proof. intros (H & _) Ht. rewrite <- H. change (map tcall P) with (tcall <$> P). now rewrite list_lookup_fmap, Ht. Qed.
  Lemma good_quiet x0 o P : known [o] = [] -> xcalls [o] = [] -> good x0 P -> good (x0 ++ [o]) P.
  Proof. intros H1 H2 (G1 & G2 & G3 & G4 & G5). unfold good. rewrite known_app, xcalls_app, H1, H2, !app_nil_r. auto. Qed.
  (** A thread that goes on within its half. *)
  Lemma good_step x0 P t th th' : good x0 P -> P !! t = Some th -> tcall th' = tcall th ->
    match th, th' with TId _ _, TId _ _ | TLook _ _, TLook _ _ | TObj _ _, TObj _ _ | TIx _ _, TIx _ _ => True | _, _ => False end ->
    good x0 (<[t := th']> P).
  Proof.
    intros (G1 & G2 & G3 & G4 & G5) Ht Hc Hk. pose proof (lookup_lt_Some _ _ _ Ht) as Hlt.
    assert (AT : forall t' th2, <[t := th']> P !! t' = Some th2 -> t' = t /\ th2 = th' \/ t' <> t /\ P !! t' = Some th2).
    { intros t' th2 H. destruct (decide (t' = t)) as [->|Hne]; [rewrite list_lookup_insert in H by exact Hlt; left; split; congruence|].
      rewrite list_lookup_insert_ne in H by congruence. auto. }
    split; [rewrite (calls_insert P t th th' Ht Hc); exact G1|]. split; [intros; rewrite insert_length; auto|].
    split; [|split]; intros t' c p H; apply AT in H as [[-> <-]|[_ H]]; eauto; destruct th; cbn in Hk; try contradiction; eauto.
  Qed.
  Lemma shape P w x P' w' : srun P w x P' w' -> v_inv v (w_io w) -> all_ok v P -> forall x0, good x0 P -> xwf x0 x.
  Proof.
    induction 1 as [P w|P w w1 x P' w' Hs _ IH|c P w x P' w' _ IH|t c X f q P w x P' w' Hp _ IH|t c X f q P w x P' w' Hp _ IH|t c X f q P w x P' w' Hp _ IH|t c X f q P w x P' w' Hp _ IH|
      t c r P w x P' w' Hp _ IH|t c r P w x P' w' Hp _ IH|t c r P w x P' w' Hp _ IH|t c r P w x P' w' Hp _ IH]; intros Hi Hok x0 HG.
    - exact Logic.I.
    - apply IH; auto. apply Hs.
    - cbn [xwf xok]. split; [exact Logic.I|]. apply IH; [exact Hi|now apply ok_call|]. destruct HG as (G1 & G2 & G3 & G4 & G5). unfold good.
      rewrite known_app, xcalls_app, map_app. cbn [known xcalls flat_map map app]. rewrite app_nil_r, start_call.
      split; [now rewrite G1|]. split; [intros t Ht; rewrite app_length; specialize (G2 t Ht); lia|].
      assert (NEW : forall t th, (P ++ [start e io L c]) !! t = Some th -> P !! t = Some th \/ t = length P /\ th = start e io L c).
      { intros t th H. apply lookup_app_Some in H as [H|[Hle H]]; [auto|]. destruct (t - length P)%nat eqn:E; [|discriminate]. injection H as <-. right. split; [lia|reflexivity]. }
      split; [|split]; intros t c' p H; apply NEW in H as [H|[-> H]]; eauto.
      + intros Ht. specialize (G2 _ Ht). lia.
      + destruct c; discriminate H.
      + destruct c; discriminate H.
    - destruct (step_ok v _ _ _ _ w Hi (ok_at v _ _ _ Hok Hp)) as [Hs Ht]. apply IH; [apply Hs|now apply ok_insert|]. eapply good_step; eauto; exact Logic.I.
    - destruct (ok_at v _ _ _ Hok Hp) as [Hth Hni]. destruct (step_ok v _ _ _ _ w Hi Hth) as [Hs Ht].
      apply IH; [apply Hs|apply ok_insert; [exact Hok|split; assumption]|]. eapply good_step; eauto; exact Logic.I.
    - destruct (step_ok v _ _ _ _ w Hi (ok_at v _ _ _ Hok Hp)) as [Hs Ht]. apply IH; [apply Hs|now apply ok_insert|]. eapply good_step; eauto; exact Logic.I.
    - destruct (step_ok v _ _ _ _ w Hi (ok_at v _ _ _ Hok Hp)) as [Hs Ht]. apply IH; [apply Hs|now apply ok_insert|]. eapply good_step; eauto; exact Logic.I.
    - destruct (ok_at v _ _ _ Hok Hp) as [Hth Hni]. pose proof (good_at _ _ _ _ HG Hp) as Hc. cbn [tcall] in Hc.
      pose proof HG as (G1 & G2 & G3 & G4 & G5). cbn [xwf xok]. split; [split; [eauto|now apply (G3 t c _ Hp)]|].
      apply IH; [exact Hi|apply ok_insert; [exact Hok|now apply begun_ok]|]. pose proof (lookup_lt_Some _ _ _ Hp) as Hlt. unfold good. rewrite known_app, xcalls_app. cbn [known xcalls flat_map app].
      rewrite app_nil_r, (calls_insert P t _ (begun e io L fuel r c) Hp (begun_call _ _ _ _ _ _)). split; [exact G1|].
      split; [intros t'; rewrite insert_length, in_app_iff; intros [H|[<-|[]]]; auto|].
      assert (AT : forall t' th2, <[t := begun e io L fuel r c]> P !! t' = Some th2 -> t' = t /\ th2 = begun e io L fuel r c \/ t' <> t /\ P !! t' = Some th2).
      { intros t' th2 H. destruct (decide (t' = t)) as [->|Hne]; [rewrite list_lookup_insert in H by exact Hlt; left; split; congruence|].
        rewrite list_lookup_insert_ne in H by congruence. auto. }
      split; [|split]; intros t' c' p H; apply AT in H as [[-> H]|[Hne H]]; rewrite in_app_iff.
      + exfalso. destruct c; discriminate H.
      + intros [Hk|[Hk|[]]]; [now apply (G3 t' c' p)|congruence].
      + right. now left.
      + left. eauto.
      + right. now left.
      + left. eauto.
    - cbn [xwf xok]. split; [exists c; exact (good_at _ _ _ _ HG Hp)|]. apply IH; auto. now apply good_quiet.
    - cbn [xwf xok]. split; [split; [exists c; exact (good_at _ _ _ _ HG Hp)|apply (proj1 (proj2 (proj2 (proj2 HG))) t c _ Hp)]|]. apply IH; auto. now apply good_quiet.
    - cbn [xwf xok]. split; [split; [exists c; exact (good_at _ _ _ _ HG Hp)|apply (proj2 (proj2 (proj2 (proj2 HG))) t c _ Hp)]|]. apply IH; auto. now apply good_quiet.
  Qed.
End Shape.

(** ** What is assumed of the run holds of its three parts *)
Lemma lib_calls_vis x : lib_calls (vis x) = xcalls x.
Proof. induction x as [|[c|t r|t r] x IH]; cbn; [reflexivity|f_equal; exact IH|exact IH|exact IH]. Qed.
Lemma id_calls_A cs x : id_calls (partA cs x) = map id_call (xcalls x).
Proof.
  induction x as [|[c|t r|t r] x IH]; cbn; [reflexivity|f_equal; exact IH| |].
  - destruct (cs !! t) as [c|]; [|exact IH]. destruct (looks_up c); exact IH.
  - destruct r; exact IH.
Qed.
Lemma id_calls_part tr : id_calls (id_part tr) = map id_call (lib_calls tr).
Proof. induction tr as [|[c|t [r|r|r]] tr IH]; cbn; [reflexivity|f_equal; exact IH|exact IH..]. Qed.
Lemma in_vis t r x : In (LReply t r) (vis x) <-> In (XReply t r) x.
Proof.
  unfold vis. rewrite in_flat_map. split.
  - intros ([c|t' q|t' q] & H & Hin); cbn in Hin; destruct Hin as [[= <- <-]|[]] || destruct Hin. exact H.
  - intros H. exists (XReply t r). split; [exact H|now left].
Qed.
Lemma in_id_part t r tr : In (IReply t r) (id_part tr) <-> In (LReply t (LIdentity r)) tr.
Proof.
  unfold id_part. rewrite in_flat_map. split.
  - intros ([c|t' [q|q|q]] & H & Hin); cbn in Hin; try contradiction; destruct Hin as [[= <- <-]|[]]. exact H.
  - intros H. eexists. split; [exact H|now left].
Qed.
Lemma in_A cs t r x : In (IReply t r) (partA cs x) <->
  In (XReply t (LIdentity r)) x \/ exists q c tok, In (XKnown t q) x /\ cs !! t = Some c /\ looks_up c = Some tok /\ r = res_map SRIdentity q.
Proof.
  unfold partA. rewrite in_flat_map. split.
  - intros ([c|t' q|t' [q|q|q]] & H & Hin); cbn in Hin; try contradiction.
    + destruct Hin as [[=]|[]].
    + destruct (cs !! t') as [c|] eqn:E1; [|destruct Hin]. destruct (looks_up c) eqn:E2; [|destruct Hin]. destruct Hin as [[= <- <-]|[]]. right. eauto 10.
    + destruct Hin as [[= <- <-]|[]]. now left.
  - intros [H|(q & c & tok & H & E1 & E2 & ->)].
    + eexists. split; [exact H|now left].
    + eexists. split; [exact H|]. cbn. rewrite E1, E2. now left.
Qed.
Lemma carries_part cs x c uid : carries (partA cs x) c uid <-> carries (id_part (vis x)) c uid.
Proof.
  unfold carries. rewrite id_calls_A, id_calls_part, lib_calls_vis.
  split; intros (tok & t & pw & tok' & exp & H1 & H2 & H3 & H4); exists tok, t, pw, tok', exp; (split; [exact H1|]; split; [exact H2|]; split; [|exact H4]).
  - apply in_id_part, in_vis. apply in_A in H3 as [H3|(q & c' & tk & _ & _ & _ & E)]; [exact H3|]. destruct q; discriminate E.
  - apply in_A. left. now apply in_vis, in_id_part.
Qed.
Lemma odds_same tr tr' c c' : (forall c uid, carries tr c uid <-> carries tr' c uid) -> SaConcSpec.at_odds tr c c' -> SaConcSpec.at_odds tr' c c'.
Proof.
  intros H. assert (HC : forall c uid, changes tr c uid -> changes tr' c uid) by (intros [] u; cbn; auto; apply H).
  assert (HA : forall c uid, acts_for tr c uid -> acts_for tr' c uid) by (intros [] u; cbn; auto; apply H).
  assert (HK : forall c c', conflicts tr c c' -> conflicts tr' c c').
  { intros d d' (u & [[A [B|B]]|B]); exists u; [left; split; [auto|left; auto]|left; split; [auto|right; auto]|right; exact B]. }
  intros [A|A]; [left|right]; auto.
Qed.
Lemma one_A (cs : list lib_call) (o : xobs) : (length (match o with
      | XCall c => [ICall (id_call c)]
      | XKnown t r => match cs !! t with Some c => match looks_up c with Some _ => [IReply t (res_map SRIdentity r)] | None => [] end | None => [] end
      | XReply t (LIdentity r) => [IReply t r]
      | XReply _ _ => []
      end) <= 1)%nat.
Proof. destruct o as [c|t r|t [r|r|r]]; cbn; try lia. destruct (cs !! t) as [c|]; [|cbn; lia]. destruct (looks_up c); cbn; lia. Qed.
Lemma call_A cs x a1 c a2 : partA cs x = a1 ++ ICall c :: a2 -> exists x1 c0 x2, x = x1 ++ XCall c0 :: x2 /\ partA cs x1 = a1 /\ c = id_call c0.
Proof.
  intros H. apply pieces_at in H as (x1 & o & x2 & -> & H1 & H2 & H3); [|apply one_A].
  destruct o as [c0|t r|t [r|r|r]]; cbn in H2; try discriminate.
  - injection H2 as <-. eauto 10.
  - destruct (cs !! t) as [c0|]; [|discriminate]. destruct (looks_up c0); discriminate.
Qed.
Lemma id_part_call x1 c x2 : id_part (vis (x1 ++ XCall c :: x2)) = id_part (vis x1) ++ ICall (id_call c) :: id_part (vis x2).
Proof. rewrite vis_app. unfold id_part at 1. rewrite flat_map_app. reflexivity. Qed.
Lemma orderly_A cs x : SaConcSpec.orderly (id_part (vis x)) -> SaConcSpec.orderly (partA cs x).
Proof.
  intros H a1 c a2 E t c' Hc Ho. apply call_A in E as (x1 & c0 & x2 & -> & <- & ->). rewrite id_calls_A in Hc.
  destruct (H (id_part (vis x1)) (id_call c0) _ (id_part_call x1 c0 x2) t c') as (r & Hr).
  - now rewrite id_calls_part, lib_calls_vis.
  - revert Ho. apply odds_same. intros. apply carries_part.
  - exists r. apply in_A. left. now apply in_vis, in_id_part.
Qed.
Lemma no_guess_A e n n' cs x : SaConcSpec.no_guess e n n' (id_part (vis x)) -> SaConcSpec.no_guess e n n' (partA cs x).
Proof.
  intros H a1 c a2 i b E Hi Hd Hn. apply call_A in E as (x1 & c0 & x2 & -> & <- & ->).
  destruct (H (id_part (vis x1)) (id_call c0) _ i b (id_part_call x1 c0 x2) Hi Hd Hn) as (t & [[pw Hr]|Hr]); exists t; [left; exists pw|right]; apply in_A; left; now apply in_vis, in_id_part.
Qed.
Lemma unforged_A k cs x : unforged k (id_part (vis x)) -> unforged k (partA cs x).
Proof.
  intros H a1 c a2 tok E Ht Ha. apply call_A in E as (x1 & c0 & x2 & -> & <- & ->).
  destruct (H (id_part (vis x1)) (id_call c0) _ tok (id_part_call x1 c0 x2) Ht Ha) as (uid & Hu). exists uid. now apply carries_part.
Qed.
Lemma scopes_A cs x : scopes_wf (id_part (vis x)) -> scopes_wf (partA cs x).
Proof. intros H c Hc. apply H. rewrite id_calls_part, lib_calls_vis. now rewrite id_calls_A in Hc. Qed.

Section Shaped.
  Context (x : list xobs) (Hx : xwf [] x).
  Notation cs := (xcalls x).
  Lemma ok_prefix x1 o x2 : x = x1 ++ o :: x2 -> xok x1 o.
  Proof. intros E. apply (xwf_at [] x1 o x2). now rewrite <- E. Qed.
  Lemma calls_prefix x1 x2 t c : x = x1 ++ x2 -> xcalls x1 !! t = Some c -> cs !! t = Some c.
  Proof. intros -> H. rewrite xcalls_app. now apply lookup_app_l_Some. Qed.
  Lemma known_nodup : NoDup (known x).
  Proof. apply (xwf_nodup x [] Hx). constructor. Qed.
  Lemma known_once x1 t r x2 : x = x1 ++ XKnown t r :: x2 -> ~ In t (known x1).
  Proof. intros E. apply (ok_prefix _ _ _ E). Qed.
  Lemma tbl_at t r : In (XKnown t r) x -> tbl x t = r.
  Proof.
    intros H. pose proof known_nodup as Hn. unfold tbl. clear Hx. induction x as [|o y IH]; [destruct H|]. cbn [flat_map]. destruct o as [c|t' q|t' q]; cbn in Hn.
    - destruct H as [[=]|H]. now apply IH.
    - inversion Hn as [|? ? Hni Hn']; subst. destruct H as [[= -> ->]|H]; [now rewrite Nat.eqb_refl|]. destruct (Nat.eqb_spec t' t) as [->|].
      + exfalso. apply Hni. apply known_in. eauto.
      + now apply IH.
    - destruct H as [[=]|H]. now apply IH.
  Qed.
  (** The call is made before its token is looked up. *)
  Lemma known_call x1 t r x2 : x = x1 ++ XKnown t r :: x2 -> (t < length (xcalls x1))%nat.
  Proof. intros E. destruct (ok_prefix _ _ _ E) as [(c & Hc & _) _]. eapply lookup_lt_Some; eauto. Qed.
  Lemma known_lt x1 x2 t : x = x1 ++ x2 -> In t (known x1) -> (t < length (xcalls x1))%nat.
  Proof.
    intros -> H. apply known_in in H as (r & H). apply in_split in H as (y1 & y2 & ->). rewrite <- app_assoc in Hx. cbn [app] in Hx.
    pose proof (xwf_at [] y1 _ _ Hx) as [(c & Hc & _) _]. rewrite xcalls_app, app_length. apply lookup_lt_Some in Hc. cbn [app] in Hc. lia.
  Qed.
  Lemma call_split x1 t c : xcalls x1 !! t = Some c -> exists y1 y2, x1 = y1 ++ XCall c :: y2 /\ length (xcalls y1) = t.
  Proof.
    clear Hx. revert t. induction x1 as [|o y IH]; intros t H; [discriminate|]. destruct o as [c'|t' r|t' r]; cbn in H.
    - destruct t as [|t]; [injection H as ->; exists [], y; auto|]. destruct (IH t H) as (y1 & y2 & -> & E). exists (XCall c' :: y1), y2. split; [reflexivity|]. cbn. f_equal. exact E.
    - destruct (IH t H) as (y1 & y2 & -> & E). exists (XKnown t' r :: y1), y2. split; [reflexivity|exact E].
    - destruct (IH t H) as (y1 & y2 & -> & E). exists (XReply t' r :: y1), y2. split; [reflexivity|exact E].
  Qed.
  (** Of two calls at odds whose tokens have both been looked up, the one looked up first has been answered. *)
  Lemma odds_answered x1 t c r x2 t' c' : lib_orderly (vis x) -> x = x1 ++ XKnown t r :: x2 -> cs !! t = Some c -> cs !! t' = Some c' ->
    In t' (known x1) -> lib_odds c' c -> lib_odds c c' -> exists r', In (XReply t' r') x1.
  Proof.
    intros [_ Ho] E Hc Hc' Hk' O1 O2. pose proof (known_call _ _ _ _ E) as Hlt. pose proof (known_lt _ _ _ E Hk') as Hlt'. pose proof (known_once _ _ _ _ E) as Hno.
    assert (C1 : xcalls x1 !! t = Some c). { destruct (lookup_lt_is_Some_2 _ _ Hlt) as (c1 & H1). pose proof (calls_prefix _ _ _ _ E H1). congruence. }
    assert (C2 : xcalls x1 !! t' = Some c'). { destruct (lookup_lt_is_Some_2 _ _ Hlt') as (c1 & H1). pose proof (calls_prefix _ _ _ _ E H1). congruence. }
    destruct (lt_eq_lt_dec t' t) as [[Hlt1|Heq]|Hlt1]; [| |].
    - destruct (call_split x1 t c C1) as (y1 & y2 & -> & El).
      assert (EV : vis x = vis y1 ++ LCall c :: vis (y2 ++ XKnown t r :: x2)). { rewrite E, <- app_assoc. cbn [app]. rewrite vis_app. reflexivity. }
      destruct (Ho (vis y1) c _ EV t' c') as (r' & Hr').
      + rewrite lib_calls_vis, nth_error_is_lookup. rewrite xcalls_app in C2. rewrite lookup_app_l in C2 by lia. exact C2.
      + exact O1.
      + exists r'. apply in_app_iff. left. now apply in_vis.
    - subst t'. contradiction.
    - exfalso. destruct (call_split x1 t' c' C2) as (y1 & y2 & -> & El).
      assert (EV : vis x = vis y1 ++ LCall c' :: vis (y2 ++ XKnown t r :: x2)). { rewrite E, <- app_assoc. cbn [app]. rewrite vis_app. reflexivity. }
      destruct (Ho (vis y1) c' _ EV t c) as (r' & Hr').
      + rewrite lib_calls_vis, nth_error_is_lookup. rewrite xcalls_app in C1. rewrite lookup_app_l in C1 by lia. exact C1.
      + exact O2.
      + apply in_vis in Hr'. apply in_split in Hr' as (z1 & z2 & ->). rewrite <- !app_assoc in E. cbn [app] in E. pose proof (ok_prefix _ _ _ E) as Hz.
        apply Hno. rewrite <- app_assoc, known_app. apply in_app_iff. left. destruct r' as [q|q|q]; cbn in Hz; try apply Hz.
        destruct Hz as (c1 & Hz). pose proof (calls_prefix _ _ _ _ E Hz) as H1. rewrite Hc in H1. injection H1 as ->. cbn in O2. contradiction.
  Qed.

  (** *** Objects *)
  Section Objects.
  Notation own := (ownB cs x).
  Lemma ownB_in t y : In t (ownB cs y) <-> In t (known y) /\ exists c, cs !! t = Some (OnObject c).
  Proof.
    unfold ownB. rewrite in_flat_map, known_in. split.
    - intros ([c|t' r|t' r] & H & Hin); cbn in Hin; try contradiction. destruct (cs !! t') as [[c|c|c]|] eqn:E; try contradiction. destruct Hin as [->|[]]. split; eauto.
    - intros [(r & H) (c & E)]. eexists. split; [exact H|]. cbn. rewrite E. now left.
  Qed.
  Lemma ownB_app a b : ownB cs (a ++ b) = ownB cs a ++ ownB cs b.
  Proof. apply flat_map_app. Qed.
  Lemma ownB_sub (c0 : list lib_call) y : NoDup (known y) -> NoDup (ownB c0 y).
  Proof.
    induction y as [|o y IH]; intros H; [constructor|]. destruct o as [c|t r|t r]; cbn in *; auto. inversion H as [|? ? H1 H2]; subst.
    destruct (c0 !! t) as [[c|c|c]|]; cbn; auto. constructor; auto. intros Hin. apply H1. unfold ownB in Hin. apply in_flat_map in Hin as (o & Ho & Hin).
    destruct o as [c1|t' r'|t' r']; try contradiction. apply known_in. destruct (c0 !! t') as [[c1|c1|c1]|]; try contradiction. destruct Hin as [->|[]]. eauto.
  Qed.
  Lemma ownB_nodup : NoDup own.
  Proof. apply ownB_sub, known_nodup. Qed.
  Lemma callsB_at y z j : x = y ++ z -> nth_error (calls_of (partB cs own y)) j =
    match ownB cs y !! j with Some t => match cs !! t with Some (OnObject c) => Some (retok t c) | _ => None end | None => None end.
  Proof.
    intros _. revert j. induction y as [|o y IH]; intros j; [destruct j; reflexivity|]. destruct o as [c|t r|t r]; cbn.
    - apply IH.
    - destruct (cs !! t) as [[c|c|c]|] eqn:E; cbn; try apply IH. destruct j as [|j]; cbn; [now rewrite E|apply IH].
    - destruct r as [r|r|r]; try apply IH. destruct (idx t own); apply IH.
  Qed.
  Lemma lenB y : length (calls_of (partB cs own y)) = length (ownB cs y).
  Proof.
    induction y as [|o y IH]; [reflexivity|]. destruct o as [c|t r|t r]; cbn; [exact IH| |].
    - destruct (cs !! t) as [[c|c|c]|]; cbn; try exact IH. f_equal. exact IH.
    - destruct r as [r|r|r]; try exact IH. destruct (idx t own); exact IH.
  Qed.
  Lemma in_B j r y : In (DReply j r) (partB cs own y) <-> exists t, own !! j = Some t /\ In (XReply t (LObject r)) y.
  Proof.
    unfold partB. rewrite in_flat_map. split.
    - intros ([c|t q|t [q|q|q]] & H & Hin); cbn in Hin; try contradiction.
      + destruct (cs !! t) as [[c|c|c]|]; try contradiction. destruct Hin as [[=]|[]].
      + destruct (idx t own) as [i|] eqn:E; [|contradiction]. destruct Hin as [[= <- <-]|[]]. exists t. split; [now apply idx_some|exact H].
    - intros (t & Ht & H). eexists. split; [exact H|]. cbn. rewrite (idx_at own j t ownB_nodup Ht). now left.
  Qed.
  Lemma one_B (o : xobs) : (length (match o with
      | XKnown t _ => match cs !! t with Some (OnObject c) => [DCall (retok t c)] | _ => [] end
      | XReply t (LObject r) => match idx t own with Some j => [DReply j r] | None => [] end
      | _ => []
      end) <= 1)%nat.
  Proof. destruct o as [c|t r|t [r|r|r]]; cbn; try lia; [destruct (cs !! t) as [[c|c|c]|]; cbn; lia|destruct (idx t own); cbn; lia]. Qed.
  Lemma call_B b1 c b2 : partB cs own x = b1 ++ DCall c :: b2 -> exists x1 t r c0 x2, x = x1 ++ XKnown t r :: x2 /\ partB cs own x1 = b1 /\ cs !! t = Some (OnObject c0) /\ c = retok t c0.
  Proof.
    intros H. unfold partB in H. apply pieces_at in H as (x1 & o & x2 & E & H1 & H2 & H3); [|apply one_B].
    destruct o as [c0|t r|t [r|r|r]]; try discriminate; [|destruct (idx t own); discriminate].
    destruct (cs !! t) as [[c0|c0|c0]|] eqn:Ec; try discriminate. injection H2 as <-. exists x1, t, r, c0, x2. auto.
  Qed.
  Lemma retok_oid t c : call_oid (retok t c) = call_oid c.
  Proof. destruct c; reflexivity. Qed.
  Lemma retok_odds t c t' c' : D1ConcSpec.at_odds (retok t c) (retok t' c') -> D1ConcSpec.at_odds c c'.
  Proof.
    unfold D1ConcSpec.at_odds. rewrite !retok_oid. assert (R : forall t c, rewrites (retok t c) = rewrites c /\ regroups (retok t c) = regroups c /\ decrypts (retok t c) = decrypts c) by (intros ? []; auto).
    destruct (R t c) as (-> & -> & ->), (R t' c') as (-> & -> & ->). auto.
  Qed.
  Lemma d1_odds_sym c c' : D1ConcSpec.at_odds c c' -> D1ConcSpec.at_odds c' c.
  Proof. intros [(o & H1 & H2) H]. split; [exists o; auto|]. tauto. Qed.
  Lemma ownB_prefix x1 x2 j t : x = x1 ++ x2 -> ownB cs x1 !! j = Some t -> own !! j = Some t.
  Proof. intros E H. replace own with (ownB cs x1 ++ ownB cs x2) by now rewrite <- ownB_app, <- E. now apply lookup_app_l_Some. Qed.
  Lemma orderly_B : lib_orderly (vis x) -> D1ConcSpec.orderly (partB cs own x).
  Proof.
    intros Ho b1 c b2 E j c' Hc' Hod. apply call_B in E as (x1 & t & r & c0 & x2 & E & <- & Hc & ->). rewrite (callsB_at x1 _ j E) in Hc'.
    destruct (ownB cs x1 !! j) as [t'|] eqn:Ej; [|discriminate]. destruct (cs !! t') as [[c1|c1|c1]|] eqn:Et'; try discriminate. injection Hc' as <-.
    apply retok_odds in Hod. destruct (odds_answered x1 t (OnObject c0) r x2 t' (OnObject c1) Ho E Hc Et') as (r' & Hr').
    - assert (Hin : In t' (ownB cs x1)) by (apply elem_of_list_In, elem_of_list_lookup; eauto). apply ownB_in in Hin. apply Hin.
    - exact Hod.
    - now apply d1_odds_sym.
    - pose proof Hr' as Hin. apply in_split in Hin as (y1 & y2 & ->). rewrite <- app_assoc in E. cbn [app] in E. pose proof (ok_prefix _ _ _ E) as Hz.
      assert (K : exists q, r' = LObject q).
      { destruct r' as [q|q|q]; [eauto| |]; exfalso; [destruct Hz as [(c2 & Hz) _]|destruct Hz as (c2 & Hz)]; pose proof (calls_prefix _ _ _ _ E Hz); congruence. }
      destruct K as (q & ->). exists q. apply in_B. exists t'. split; [|exact Hr']. eapply (ownB_prefix _ (XKnown t r :: x2)); [|exact Ej]. rewrite E. rewrite <- app_assoc. reflexivity.
  Qed.
  Lemma no_guess_B e n n' : lib_no_guess e n n' (vis x) -> D1ConcSpec.no_guess e n n' (partB cs own x).
  Proof.
    intros [_ H] b1 c b2 i b E Hi Hd Hn. apply call_B in E as (x1 & t & r & c0 & x2 & E & <- & Hc & ->). rewrite retok_oid in Hn.
    pose proof (known_call _ _ _ _ E) as Hlt. destruct (lookup_lt_is_Some_2 _ _ Hlt) as (c1 & H1). pose proof (calls_prefix _ _ _ _ E H1) as H2. rewrite Hc in H2. injection H2 as <-.
    destruct (call_split x1 t _ H1) as (y1 & y2 & -> & El).
    assert (EV : vis x = vis y1 ++ LCall (OnObject c0) :: vis (y2 ++ XKnown t r :: x2)). { rewrite E, <- app_assoc. cbn [app]. rewrite vis_app. reflexivity. }
    destruct (H (vis y1) c0 _ i b EV Hi Hd Hn) as (t' & Ht'). apply in_vis in Ht'. pose proof Ht' as Hin. apply in_split in Hin as (z1 & z2 & ->).
    rewrite <- !app_assoc in E. cbn [app] in E. pose proof (ok_prefix _ _ _ E) as [(c2 & Hz) Hk].
    assert (Hown : In t' own). { apply ownB_in. split; [rewrite E, known_app; apply in_app_iff; now left|]. exists c2. exact (calls_prefix _ _ _ _ E Hz). }
    apply elem_of_list_In, elem_of_list_lookup in Hown as (j & Hj). exists j. apply in_B. exists t'. split; [exact Hj|]. apply in_app_iff. now left.
  Qed.
  Lemma ids_B : lib_wf (vis x) -> ids_wf (partB cs own x).
  Proof.
    intros [_ H] c oid Hc Ho. apply In_nth_error in Hc as (j & Hc). rewrite (callsB_at x [] j (eq_sym (app_nil_r x))) in Hc.
    destruct (own !! j) as [t|]; [|discriminate]. destruct (cs !! t) as [[c0|c0|c0]|] eqn:E; try discriminate. injection Hc as <-. rewrite retok_oid in Ho.
    apply (H c0 oid); [|exact Ho]. rewrite lib_calls_vis. apply elem_of_list_In, elem_of_list_lookup. eauto.
  Qed.
  End Objects.
  (** *** The index *)
  Section Index.
  Notation own := (ownC cs x).
  Lemma ownC_in t y : In t (ownC cs y) <-> In t (known y) /\ exists c, cs !! t = Some (OnIndex c).
  Proof.
    unfold ownC. rewrite in_flat_map, known_in. split.
    - intros ([c|t' r|t' r] & H & Hin); cbn in Hin; try contradiction. destruct (cs !! t') as [[c|c|c]|] eqn:E; try contradiction. destruct Hin as [->|[]]. split; eauto.
    - intros [(r & H) (c & E)]. eexists. split; [exact H|]. cbn. rewrite E. now left.
  Qed.
  Lemma ownC_app a b : ownC cs (a ++ b) = ownC cs a ++ ownC cs b.
  Proof. apply flat_map_app. Qed.
  Lemma ownC_sub (c0 : list lib_call) y : NoDup (known y) -> NoDup (ownC c0 y).
  Proof.
    induction y as [|o y IH]; intros H; [constructor|]. destruct o as [c|t r|t r]; cbn in *; auto. inversion H as [|? ? H1 H2]; subst.
    destruct (c0 !! t) as [[c|c|c]|]; cbn; auto. constructor; auto. intros Hin. apply H1. unfold ownC in Hin. apply in_flat_map in Hin as (o & Ho & Hin).
    destruct o as [c1|t' r'|t' r']; try contradiction. apply known_in. destruct (c0 !! t') as [[c1|c1|c1]|]; try contradiction. destruct Hin as [->|[]]. eauto.
  Qed.
  Lemma ownC_nodup : NoDup own.
  Proof. apply ownC_sub, known_nodup. Qed.
  Lemma callsC_at y z j : x = y ++ z -> nth_error (obs_calls (partC cs own y)) j =
    match ownC cs y !! j with Some t => match cs !! t with Some (OnIndex c) => Some (ix_retok t c) | _ => None end | None => None end.
  Proof.
    intros _. revert j. induction y as [|o y IH]; intros j; [destruct j; reflexivity|]. destruct o as [c|t r|t r]; cbn.
    - apply IH.
    - destruct (cs !! t) as [[c|c|c]|] eqn:E; cbn; try apply IH. destruct j as [|j]; cbn; [now rewrite E|apply IH].
    - destruct r as [r|r|r]; try apply IH. destruct (idx t own); apply IH.
  Qed.
  Lemma lenC y : length (obs_calls (partC cs own y)) = length (ownC cs y).
  Proof.
    induction y as [|o y IH]; [reflexivity|]. destruct o as [c|t r|t r]; cbn; [exact IH| |].
    - destruct (cs !! t) as [[c|c|c]|]; cbn; try exact IH. f_equal. exact IH.
    - destruct r as [r|r|r]; try exact IH. destruct (idx t own); exact IH.
  Qed.
  Lemma in_C j r y : In (OReply j r) (partC cs own y) <-> exists t, own !! j = Some t /\ In (XReply t (LIndex r)) y.
  Proof.
    unfold partC. rewrite in_flat_map. split.
    - intros ([c|t q|t [q|q|q]] & H & Hin); cbn in Hin; try contradiction.
      + destruct (cs !! t) as [[c|c|c]|]; try contradiction. destruct Hin as [[=]|[]].
      + destruct (idx t own) as [i|] eqn:E; [|contradiction]. destruct Hin as [[= <- <-]|[]]. exists t. split; [now apply idx_some|exact H].
    - intros (t & Ht & H). eexists. split; [exact H|]. cbn. rewrite (idx_at own j t ownC_nodup Ht). now left.
  Qed.
  Lemma one_C (o : xobs) : (length (match o with
      | XKnown t _ => match cs !! t with Some (OnIndex c) => [OCall (ix_retok t c)] | _ => [] end
      | XReply t (LIndex r) => match idx t own with Some j => [OReply j r] | None => [] end
      | _ => []
      end) <= 1)%nat.
  Proof. destruct o as [c|t r|t [r|r|r]]; cbn; try lia; [destruct (cs !! t) as [[c|c|c]|]; cbn; lia|destruct (idx t own); cbn; lia]. Qed.
  Lemma call_C b1 c b2 : partC cs own x = b1 ++ OCall c :: b2 -> exists x1 t r c0 x2, x = x1 ++ XKnown t r :: x2 /\ partC cs own x1 = b1 /\ cs !! t = Some (OnIndex c0) /\ c = ix_retok t c0.
  Proof.
    intros H. unfold partC in H. apply pieces_at in H as (x1 & o & x2 & E & H1 & H2 & H3); [|apply one_C].
    destruct o as [c0|t r|t [r|r|r]]; try discriminate; [|destruct (idx t own); discriminate].
    destruct (cs !! t) as [[c0|c0|c0]|] eqn:Ec; try discriminate. injection H2 as <-. exists x1, t, r, c0, x2. auto.
  Qed.
  Lemma ix_retok_odds t c t' c' : ix_odds (ix_retok t c) (ix_retok t' c') -> ix_odds c c'.
  Proof. destruct c, c'; exact (fun H => H). Qed.
  Lemma ix_odds_sym c c' : ix_odds c c' -> ix_odds c' c.
  Proof. unfold ix_odds. intuition congruence. Qed.
  Lemma ownC_prefix x1 x2 j t : x = x1 ++ x2 -> ownC cs x1 !! j = Some t -> own !! j = Some t.
  Proof. intros E H. replace own with (ownC cs x1 ++ ownC cs x2) by now rewrite <- ownC_app, <- E. now apply lookup_app_l_Some. Qed.
  Lemma orderly_C : lib_orderly (vis x) -> ix_orderly (partC cs own x).
  Proof.
    intros Ho b1 c b2 E j c' Hc' Hod. apply call_C in E as (x1 & t & r & c0 & x2 & E & <- & Hc & ->). rewrite (callsC_at x1 _ j E) in Hc'.
    destruct (ownC cs x1 !! j) as [t'|] eqn:Ej; [|discriminate]. destruct (cs !! t') as [[c1|c1|c1]|] eqn:Et'; try discriminate. injection Hc' as <-.
    apply ix_retok_odds in Hod. destruct (odds_answered x1 t (OnIndex c0) r x2 t' (OnIndex c1) Ho E Hc Et') as (r' & Hr').
    - assert (Hin : In t' (ownC cs x1)) by (apply elem_of_list_In, elem_of_list_lookup; eauto). apply ownC_in in Hin. apply Hin.
    - exact Hod.
    - now apply ix_odds_sym.
    - pose proof Hr' as Hin. apply in_split in Hin as (y1 & y2 & ->). rewrite <- app_assoc in E. cbn [app] in E. pose proof (ok_prefix _ _ _ E) as Hz.
      assert (K : exists q, r' = LIndex q).
      { destruct r' as [q|q|q]; [|eauto|]; exfalso; [destruct Hz as [(c2 & Hz) _]|destruct Hz as (c2 & Hz)]; pose proof (calls_prefix _ _ _ _ E Hz); congruence. }
      destruct K as (q & ->). exists q. apply in_C. exists t'. split; [|exact Hr']. eapply (ownC_prefix _ (XKnown t r :: x2)); [|exact Ej]. rewrite E. rewrite <- app_assoc. reflexivity.
  Qed.
  (** Additions are counted once. *)
  Definition adds (c : lib_call) : bool := match c with OnIndex (IAdd _ _ _) => true | _ => false end.
  Definition adds_at (l : list lib_call) (t : nat) : bool := match l !! t with Some c => adds c | None => false end.
  Lemma count_index (l : list lib_call) : count_adds (index_calls l) = length (List.filter adds l).
  Proof. unfold count_adds. clear Hx. induction l as [|c l IH]; [reflexivity|]. destruct c as [c|[]|c]; cbn; rewrite <- ?IH; reflexivity. Qed.
  Lemma count_seq (l pre : list lib_call) : length (List.filter (adds_at (pre ++ l)) (List.seq (length pre) (length l))) = length (List.filter adds l).
  Proof.
    clear Hx. revert pre. induction l as [|c l IH]; intros pre; [reflexivity|]. cbn [length List.seq List.filter].
    assert (E : adds_at (pre ++ c :: l) (length pre) = adds c) by (unfold adds_at; now rewrite list_lookup_middle).
    specialize (IH (pre ++ [c])). rewrite <- app_assoc, app_length, Nat.add_1_r in IH. cbn [app] in IH. rewrite E. destruct (adds c); cbn [length]; now rewrite IH.
  Qed.
  Lemma count_part y : count_adds (obs_calls (partC cs own y)) = length (List.filter (adds_at cs) (ownC cs y)).
  Proof.
    unfold count_adds. induction y as [|o y IH]; [reflexivity|]. destruct o as [c|t r|t r]; cbn; [exact IH| |].
    - destruct (cs !! t) as [[c|c|c]|] eqn:E; cbn; try exact IH. unfold adds_at at 1. rewrite E. destruct c; cbn; [f_equal; exact IH|exact IH|exact IH].
    - destruct r as [r|r|r]; try exact IH. destruct (idx t own); exact IH.
  Qed.
  Lemma count_C : (count_adds (obs_calls (partC cs own x)) <= count_adds (index_calls cs))%nat.
  Proof.
    rewrite count_part, count_index, <- (count_seq cs []). apply NoDup_incl_length.
    - apply NoDup_filter, ownC_nodup.
    - intros t Ht. apply filter_In in Ht as [H1 H2]. apply filter_In. split; [|exact H2]. apply in_seq. apply ownC_in in H1 as (_ & c & Hc). apply lookup_lt_Some in Hc. cbn. lia.
  Qed.
  Lemma keywords_C kw : In kw (map ix_keyword (obs_calls (partC cs own x))) -> In kw (map ix_keyword (index_calls cs)).
  Proof.
    intros H. apply in_map_iff in H as (c & <- & H). apply In_nth_error in H as (j & H). rewrite (callsC_at x [] j (eq_sym (app_nil_r x))) in H.
    destruct (own !! j) as [t|]; [|discriminate]. destruct (cs !! t) as [[c0|c0|c0]|] eqn:E; try discriminate. injection H as <-.
    replace (ix_keyword (ix_retok t c0)) with (ix_keyword c0) by (destruct c0; reflexivity). apply in_map. unfold index_calls. apply in_flat_map. exists (OnIndex c0).
    split; [apply elem_of_list_In, elem_of_list_lookup; eauto|now left].
  Qed.
  Lemma labels_C iek : labels_differ iek (map ix_keyword (index_calls cs)) (N.of_nat (count_adds (index_calls cs))) ->
    labels_differ iek (map ix_keyword (obs_calls (partC cs own x))) (N.of_nat (count_adds (obs_calls (partC cs own x)))).
  Proof. intros H kw kw' c c' H1 H2 H3 H4. pose proof count_C. apply H; [now apply keywords_C|now apply keywords_C|lia|lia]. Qed.
  End Index.
End Shaped.
