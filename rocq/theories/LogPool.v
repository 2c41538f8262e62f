(** Interleavings of calls that log. *)
From stdpp Require Import gmap.
From Verif Require Import Bytes Go World Slices SlicesSpec SlicesProofs Threads Lib LibSpec LibHist Log LogSpec LogProofs LogCalls.

Lemma steps_trans {W A} (p1 p2 p3 : list (prog W A)) w1 w2 w3 : steps p1 w1 p2 w2 -> steps p2 w2 p3 w3 -> steps p1 w1 p3 w3.
Proof. induction 1; [auto|]. intros. eapply s_step; eauto. Qed.

Section Pool.
  Context {S I : Type} (txt : bytes -> bytes) (room : nat -> list byte).
  Notation W := (world S I).
  Notation LW := (logs * world S I)%type.
  Notation ent := (option logger * list (bytes * bytes))%type.

  (** ** The same answers *)
  Definition same {A} (a b : A) (_ : list ent) : Prop := a = b.
  Definition like {A} (p : prog LW A) (q : prog W A) : Prop := exists who okl okd G, traced txt room who okl okd same G p q.
  Definition alike {A} (pl : list (prog LW A)) (pq : list (prog W A)) : Prop :=
    length pq = length pl /\ forall t p, pl !! t = Some p -> exists q, pq !! t = Some q /\ like p q.

  Lemma traced_plain {A} who okl okd (Post : A -> A -> list ent -> Prop) G p q : traced txt room who okl okd Post G p q ->
    match p with
    | Ret a => exists b G', q = Ret b /\ Post a b G'
    | Step f k => forall x : LW, exists G' q', qstep q (snd x) q' (snd (snd (f x))) /\ traced txt room who okl okd Post G' (k (fst (f x))) q'
    end.
  Proof.
    intros T. induction T.
    - eauto.
    - intros [g w]. exists G, (k' (fst (f w))). cbn [fst snd]. specialize (H w). destruct (f w) as [x w'] eqn:Ef. cbn [fst snd] in *.
      split; [right; rewrite Ef; auto|assumption].
    - intros [g w]. eexists _, q. cbn [say_step fst snd]. split; [left; auto|exact T].
    - intros [g w]. unfold field_step. cbn [fst snd]. destruct (sl_append _ _ _ _) as [s h']. cbn [fst snd]. eexists _, q. split; [left; auto|]. apply H.
    - destruct p; assumption.
    - destruct p; assumption.
  Qed.
  Lemma like_ret {A} (a : A) q : like (Ret a) q -> q = Ret a.
  Proof. intros (who & okl & okd & G & T). apply traced_plain in T as (b & G' & -> & E). now rewrite E. Qed.
  Lemma alike_insert {A} (pl : list (prog LW A)) pq t p q : alike pl pq -> like p q -> alike (<[t := p]> pl) (<[t := q]> pq).
  Proof.
    intros [E H] Hl. split; [now rewrite !insert_length|]. intros u p' Hu. destruct (decide (u = t)) as [->|Ne].
    - apply list_lookup_insert_Some in Hu as [(_ & -> & Lt)|(Ne & _)]; [|congruence]. exists q. split; [|exact Hl]. apply list_lookup_insert. lia.
    - rewrite list_lookup_insert_ne in Hu by congruence. destruct (H _ _ Hu) as (q' & Hq & Hl'). exists q'. rewrite list_lookup_insert_ne by congruence. auto.
  Qed.
  Lemma insert_same {A} (l : list A) t x y : l !! t = Some y -> y = x -> l = <[t := x]> l.
  Proof. intros H ->. symmetry. now apply list_insert_id. Qed.
  Lemma pool_forward {A} (pl pl' : list (prog LW A)) x x' : steps pl x pl' x' -> forall pq, alike pl pq ->
    exists pq', steps pq (snd x) pq' (snd x') /\ alike pl' pq'.
  Proof.
    induction 1 as [|t X f k pool w pool' w' Hp St IH]; intros pq Al; [eauto using s_nil|].
    destruct (proj2 Al _ _ Hp) as (q & Hq & who & okl & okd & G & T). apply traced_plain in T. destruct (T w) as (G' & q' & Q & T').
    assert (Al' : alike (<[t := k (fst (f w))]> pool) (<[t := q']> pq)) by (apply alike_insert; [exact Al|]; do 4 eexists; exact T').
    destruct (IH _ Al') as (pq' & St' & Alf). exists pq'. split; [|exact Alf].
    destruct Q as [[-> Ew]|Q].
    - rewrite <- Ew. rewrite (list_insert_id _ _ _ Hq) in St'. exact St'.
    - destruct q as [|Y g kq]; [contradiction|]. destruct Q as [-> Ew]. eapply s_step; [exact Hq|]. rewrite <- Ew. exact St'.
  Qed.
  Lemma alike_pool e (io : provider S) L fuel calls : alike (pool_l txt room e io L fuel calls) (pool_plain e io L fuel calls : list (prog W _)).
  Proof.
    unfold pool_l, pool_plain. split; [now rewrite imap_length, map_length|]. intros t p Hp. apply list_lookup_imap_Some in Hp as ([ctx c] & Hc & ->).
    exists (lib_do e io L fuel c). split; [change (map ?f calls) with (f <$> calls); now rewrite list_lookup_fmap, Hc|]. do 4 eexists. apply tr_lib_do.
  Qed.
  Lemma pool_transparent e (io : provider S) L fuel calls g (w : W) pool' g' w' :
    steps (pool_l txt room e io L fuel calls) (g, w) pool' (g', w') ->
    exists plain', steps (pool_plain e io L fuel calls) w plain' w' /\ forall t r, pool' !! t = Some (Ret r) -> plain' !! t = Some (Ret r).
  Proof.
    intros St. destruct (pool_forward _ _ _ _ St _ (alike_pool e io L fuel calls)) as (pq' & St' & Al). exists pq'. split; [exact St'|].
    intros t r Hr. destruct (proj2 Al _ _ Hr) as (q & Hq & Hl). apply like_ret in Hl. congruence.
  Qed.

  (** ** Nothing is held up *)
  Lemma catch_up {A} who okl okd G (p : prog LW A) q : traced txt room who okl okd same G p q ->
    forall pool t g w, pool !! t = Some p -> exists g' p' G', steps pool (g, w) (<[t := p']> pool) (g', w) /\
      match q with
      | Ret b => p' = Ret b
      | Step f k' => exists k, p' = Step (fun lw => let '(x, w) := f (snd lw) in (x, (fst lw, w))) k /\
          forall w, traced txt room who okl okd same G' (k (fst (f w))) (k' (fst (f w)))
      end.
  Proof.
    intros T. induction T; intros pool t g w0 Hp.
    - exists g, (Ret b), G. rewrite <- H. rewrite list_insert_id by exact Hp. split; [constructor|reflexivity].
    - eexists g, _, G. rewrite list_insert_id by exact Hp. split; [constructor|]. eauto.
    - edestruct (IHT (<[t := k tt]> pool) t) as (g' & p' & G' & St & Q); [eapply list_lookup_insert, lookup_lt_Some; eassumption|].
      exists g', p', G'. split; [|exact Q]. rewrite list_insert_insert in St. eapply s_step; [exact Hp|]. exact St.
    - destruct (field_step txt room lg f (g, w0)) as [lg' [g1 w1]] eqn:Ef. 
      assert (w1 = w0). { unfold field_step in Ef. destruct (sl_append _ _ _ _). cbn in Ef. congruence. } subst w1.
      edestruct (H0 lg' (<[t := k lg']> pool) t g1 w0) as (g' & p' & G' & St & Q); [eapply list_lookup_insert, lookup_lt_Some; eassumption|].
      exists g', p', G'. split; [|exact Q]. rewrite list_insert_insert in St. eapply s_step; [exact Hp|]. rewrite Ef. exact St.
    - eauto.
    - eauto.
  Qed.
  Lemma settle {A} n (pl : list (prog LW A)) pq g w : alike pl pq -> exists pl' g', steps pl (g, w) pl' (g', w) /\ alike pl' pq /\
    forall t b, t < n -> pq !! t = Some (Ret b) -> pl' !! t = Some (Ret b).
  Proof.
    intros Al. induction n as [|n (pl' & g' & St & Al' & Hn)]; [exists pl, g; split; [constructor|]; split; [exact Al|lia]|].
    destruct (pq !! n) as [[b|X f k]|] eqn:Eq.
    - destruct (pl' !! n) as [p|] eqn:Ep; [|apply lookup_lt_Some in Eq; apply lookup_ge_None in Ep; destruct Al'; lia].
      destruct (proj2 Al' _ _ Ep) as (q & Hq & who & okl & okd & G & T). rewrite Eq in Hq. injection Hq as <-.
      destruct (catch_up _ _ _ _ _ _ T pl' n g' w Ep) as (g2 & p2 & G2 & St2 & ->).
      exists (<[n := Ret b]> pl'), g2. split; [eapply steps_trans; eassumption|]. split.
      + replace pq with (<[n := Ret b]> pq) by now apply list_insert_id. apply alike_insert; [exact Al'|].
        exists 0, (fun _ => True), (fun _ => True), []. now apply tr_ret.
      + intros t b' Ht Hb. destruct (decide (t = n)) as [->|Ne].
        * rewrite Eq in Hb. injection Hb as <-. apply list_lookup_insert. now apply lookup_lt_Some in Ep.
        * rewrite list_lookup_insert_ne by congruence. apply Hn; [lia|exact Hb].
    - exists pl', g'. split; [exact St|]. split; [exact Al'|]. intros t b Ht Hb. apply Hn; [|exact Hb]. destruct (decide (t = n)); [congruence|lia].
    - exists pl', g'. split; [exact St|]. split; [exact Al'|]. intros t b Ht Hb. apply Hn; [|exact Hb]. destruct (decide (t = n)); [congruence|lia].
  Qed.
  Lemma pool_back {A} (pq pq' : list (prog W A)) w w' : steps pq w pq' w' -> forall pl g, alike pl pq ->
    exists pl' g', steps pl (g, w) pl' (g', w') /\ alike pl' pq'.
  Proof.
    induction 1 as [|t X f k pool w pool' w' Hq St IH]; intros pl g Al; [eauto using s_nil|].
    destruct (pl !! t) as [p|] eqn:Ep; [|apply lookup_lt_Some in Hq; apply lookup_ge_None in Ep; destruct Al; lia].
    destruct (proj2 Al _ _ Ep) as (q & Hq' & who & okl & okd & G & T). rewrite Hq in Hq'. injection Hq' as <-.
    destruct (catch_up _ _ _ _ _ _ T pl t g w Ep) as (g2 & p2 & G2 & St2 & kl & -> & T2).
    edestruct (IH (<[t := kl (fst (f w))]> pl) g2) as (pl' & g' & St' & Al').
    { apply alike_insert; [exact Al|]. do 4 eexists. apply T2. }
    exists pl', g'. split; [|exact Al']. eapply steps_trans; [exact St2|]. eapply s_step.
    - apply list_lookup_insert. now apply lookup_lt_Some in Ep.
    - rewrite list_insert_insert. cbn [snd fst]. destruct (f w) as [x w1]. exact St'.
  Qed.
  Lemma pool_unhindered e (io : provider S) L fuel calls (w : W) plain' w' : steps (pool_plain e io L fuel calls) w plain' w' ->
    forall g, exists pool' g', steps (pool_l txt room e io L fuel calls) (g, w) pool' (g', w') /\
      forall t r, plain' !! t = Some (Ret r) -> pool' !! t = Some (Ret r).
  Proof.
    intros St g. destruct (pool_back _ _ _ _ St _ g (alike_pool e io L fuel calls)) as (pl1 & g1 & St1 & Al1).
    destruct (settle (length plain') pl1 plain' g1 w' Al1) as (pl2 & g2 & St2 & _ & H). exists pl2, g2. split; [eapply steps_trans; eassumption|].
    intros t r Ht. apply H; [now apply lookup_lt_Some in Ht|exact Ht].
  Qed.

  (** ** Lines *)
  Context (e : env) (io : provider S) (L : lib) (fuel : nat) (calls : list (option logger * lib_call)) (h0 : list (list byte)).
  Definition base_of (o : option logger) : bytes * bool := match o with Some lg => (contents h0 (lg_ctx lg), lg_debug lg) | None => ([], false) end.
  Notation okl_ c := (okl (I:=I) e io L c).
  Definition line_ok (l : line) : Prop := exists lg c, calls !! l_who l = Some (Some lg, c) /\ lg_debug lg = true /\
    own_line (I:=I) txt e io L c (contents h0 (lg_ctx lg)) l.
  Definition inv_pool own h (pl : list (prog LW lib_reply)) : Prop :=
    (forall a u, own a = Some u -> a < length h) /\
    forall t p, pl !! t = Some p -> exists ctx c G q, calls !! t = Some (ctx, c) /\
      traced txt room t (okl_ c) (own_detail (I:=I) e io L c) same G p q /\ inv txt own t (base_of ctx) h G.
  Lemma pool_lines_inv pl pl' x x' : steps pl x pl' x' -> forall own, inv_pool own (g_heap (fst x)) pl ->
    exists new, g_lines (fst x') = new ++ g_lines (fst x) /\ Forall line_ok new.
  Proof.
    induction 1 as [|t X f k pool [g w] pool' x' Hp St IH]; intros own [Own J]; [exists []; split; [reflexivity|constructor]|].
    destruct (J _ _ Hp) as (ctx & c & G & q & Hc & T & V). destruct (traced_step _ _ _ _ _ (base_of ctx) _ _ _ _ T own g w V)
      as (own' & G' & q' & _ & T' & M & V' & Ln).
    destruct (IH own') as (new & En & Fn).
    - split; [eapply mv_in; eauto|]. intros u p Hu. destruct (decide (u = t)) as [->|Ne].
      + rewrite list_lookup_insert in Hu by now apply lookup_lt_Some in Hp. injection Hu as <-. eauto 10.
      + rewrite list_lookup_insert_ne in Hu by congruence. destruct (J _ _ Hu) as (ctx1 & c1 & G1 & q1 & Hc1 & T1 & V1).
        exists ctx1, c1, G1, q1. split; [exact Hc1|]. split; [exact T1|]. eapply inv_other; eauto.
    - destruct Ln as [El|(fs & m & d & El & Db & (fs' & -> & Ff) & Od)]; rewrite El in En; [eauto|].
      eexists. split; [rewrite En; apply (app_assoc new [_])|]. apply List.Forall_app. split; [exact Fn|]. constructor; [|constructor].
      destruct ctx as [lg|]; [|discriminate Db]. exists lg, c. cbn [l_who]. split; [exact Hc|]. split; [exact Db|]. split; [|exact Od]. exists fs'. split; [exact Ff|]. reflexivity.
  Qed.
  Lemma lookup_pool t (p : prog LW lib_reply) : pool_l txt room e io L fuel calls !! t = Some p -> exists ctx c, calls !! t = Some (ctx, c) /\ p = lib_do_l txt room t e io L fuel ctx c.
  Proof. unfold pool_l. intros Hp. apply list_lookup_imap_Some in Hp as ([ctx c] & Hc & ->). eauto. Qed.
  (** Who owns which array at the start: an array with a logger that has room is its caller's. *)
  Definition roomy (a t : nat) : Prop := exists lg c, calls !! t = Some (Some lg, c) /\ sl_arr (lg_ctx lg) = a /\ ~ sl_full (lg_ctx lg).
  Fixpoint owner_in (cs : list (option logger * lib_call)) (n a : nat) : option nat :=
    match cs with
    | [] => None
    | (Some lg, _) :: cs' => if (sl_arr (lg_ctx lg) =? a) && negb (sl_len (lg_ctx lg) =? sl_cap (lg_ctx lg)) then Some n else owner_in cs' (Datatypes.S n) a
    | (None, _) :: cs' => owner_in cs' (Datatypes.S n) a
    end.
  Lemma owner_some cs n a t : owner_in cs n a = Some t -> exists lg c, n <= t /\ cs !! (t - n) = Some (Some lg, c) /\ sl_arr (lg_ctx lg) = a /\ ~ sl_full (lg_ctx lg).
  Proof.
    revert n. induction cs as [|[[lg|] c] cs IH]; cbn [owner_in]; intros n; [discriminate| |].
    - destruct (Nat.eqb_spec (sl_arr (lg_ctx lg)) a) as [Ea|Na], (Nat.eqb_spec (sl_len (lg_ctx lg)) (sl_cap (lg_ctx lg))) as [Ef|Nf]; cbn [andb negb].
      2:{ intros [= <-]. exists lg, c. rewrite Nat.sub_diag. auto. }
      all: intros H; apply IH in H as (lg' & c' & Hle & Hl & R); exists lg', c'; split; [lia|]; replace (t - n) with (Datatypes.S (t - Datatypes.S n)) by lia; auto.
    - intros H; apply IH in H as (lg' & c' & Hle & Hl & R); exists lg', c'; split; [lia|]; replace (t - n) with (Datatypes.S (t - Datatypes.S n)) by lia; auto.
  Qed.
  Lemma owner_none cs n a t lg c : owner_in cs n a = None -> cs !! t = Some (Some lg, c) -> sl_arr (lg_ctx lg) = a -> sl_full (lg_ctx lg).
  Proof.
    revert n t. induction cs as [|[[lg'|] c'] cs IH]; cbn [owner_in]; intros n t H Ht Ha; [discriminate| |].
    - destruct (Nat.eqb_spec (sl_arr (lg_ctx lg')) a) as [Ea|Na], (Nat.eqb_spec (sl_len (lg_ctx lg')) (sl_cap (lg_ctx lg'))) as [Ef|Nf]; cbn [andb negb] in H;
        [|discriminate H|..]; (destruct t as [|t]; [injection Ht as <- <-|]); eauto; try congruence.
    - destruct t; [discriminate Ht|eauto].
  Qed.
  Lemma inv_start : loggers_ok h0 calls -> (forall t, unshared calls t) -> inv_pool (owner_in calls 0) h0 (pool_l txt room e io L fuel calls).
  Proof.
    intros Ok Un. split.
    - intros a u H. apply owner_some in H as (lg & c & _ & Hl & <- & _). rewrite Nat.sub_0_r in Hl. now apply Ok in Hl.
    - intros t p Hp. apply lookup_pool in Hp as (ctx & c & Hc & ->). exists ctx, c, [(ctx, [])], (lib_do e io L fuel c). split; [exact Hc|]. split; [apply tr_lib_do|].
      split; [|split; [constructor|exact Logic.I]]. constructor; [|constructor]. destruct ctx as [lg|]; [|exact Logic.I]. cbn [good base_of fst snd].
      destruct (Ok _ _ _ Hc) as [K Hlt]. split; [exact K|]. split; [exact Hlt|]. split; [reflexivity|]. split; [reflexivity|].
      destruct (owner_in calls 0 (sl_arr (lg_ctx lg))) as [u|] eqn:Eo.
      + left. f_equal. pose proof (owner_some _ _ _ _ Eo) as (lg' & c' & _ & Hl & Ea & Nf). rewrite Nat.sub_0_r in Hl.
        destruct (decide (t = u)) as [E|Ne]; [now symmetry|]. destruct (Un _ _ _ Hl) as [F|H]; [contradiction|]. exfalso. eapply H; [exact Ne|exact Hc|now symmetry].
      + right. split; [reflexivity|]. eapply owner_none; eauto.
  Qed.
  Lemma pool_lines g (w : W) pool' g' w' : g_heap g = h0 -> loggers_ok h0 calls -> (forall t, unshared calls t) ->
    steps (pool_l txt room e io L fuel calls) (g, w) pool' (g', w') -> exists new, g_lines g' = new ++ g_lines g /\ forall l, In l new -> line_ok l.
  Proof.
    intros Eh Ok Un St. destruct (pool_lines_inv _ _ _ _ St (owner_in calls 0)) as (new & En & F).
    - cbn [fst]. rewrite Eh. now apply inv_start.
    - exists new. split; [exact En|]. now apply List.Forall_forall.
  Qed.

  (** ** Callers' contexts *)
  Context (prot : nat -> nat -> Prop) (Hprot : forall a i, prot a i -> a < length h0).
  Definition wgood (h : list (list byte)) (x : ent) : Prop :=
    match x with
    | (None, _) => True
    | (Some lg, _) => sl_ok h (lg_ctx lg) /\ sl_arr (lg_ctx lg) < length h /\
        forall i, sl_len (lg_ctx lg) <= i < sl_cap (lg_ctx lg) -> ~ prot (sl_arr (lg_ctx lg)) (sl_off (lg_ctx lg) + i)
    end.
  Notation clear := (fun a i => ~ prot a i).
  Lemma wgood_mono P h h' x : only_changed P h h' -> wgood h x -> wgood h' x.
  Proof.
    intros OC. destruct x as [[lg|] fs]; [|auto]. intros (K & Hl & H). split; [eapply oc_ok; eauto|]. split; [destruct OC; lia|exact H].
  Qed.
  Lemma wgood_append h lg xs s h' d : length h0 <= length h -> wgood h (Some lg, []) -> sl_append (room (sl_len (lg_ctx lg))) h (lg_ctx lg) xs = (s, h') ->
    only_changed clear h h' /\ wgood h' (Some (mkLogger s d), []).
  Proof.
    intros Hh (K & Hl & H) E. pose proof (oc_append _ _ _ _ _ _ K E) as OC. pose proof (append_contents _ _ _ _ _ _ K E) as [_ K'].
    assert (OC' : only_changed clear h h').
    { eapply oc_weaken; [exact OC|]. cbn beta. intros a i _ (-> & Hi & Hj). replace i with (sl_off (lg_ctx lg) + (i - sl_off (lg_ctx lg))) by lia. apply H. lia. }
    split; [exact OC'|]. cbn [wgood lg_ctx]. split; [exact K'|]. unfold sl_append in E. destruct (Nat.leb_spec (sl_len (lg_ctx lg) + length xs) (sl_cap (lg_ctx lg))).
    - injection E as <- <-. cbn [sl_arr sl_off sl_len sl_cap]. rewrite sl_write_length. split; [exact Hl|]. intros i Hi. apply H. lia.
    - unfold sl_make in E. injection E as <- <-. cbn [sl_arr sl_off sl_len sl_cap]. rewrite app_length. split; [cbn; lia|]. intros i _ Hp. apply Hprot in Hp. lia.
  Qed.
  Lemma wgood_fields h o fs fs' : wgood h (o, fs) -> wgood h (o, fs').
  Proof. destruct o; auto. Qed.
  Lemma traced_weak {A} who okl okd (Post : A -> A -> list ent -> Prop) G p q : traced txt room who okl okd Post G p q ->
    match p with
    | Ret a => True
    | Step f k => forall x : LW, length h0 <= length (g_heap (fst x)) -> Forall (wgood (g_heap (fst x))) G ->
        exists G' q', traced txt room who okl okd Post G' (k (fst (f x))) q' /\ only_changed clear (g_heap (fst x)) (g_heap (fst (snd (f x)))) /\
          Forall (wgood (g_heap (fst (snd (f x))))) G'
    end.
  Proof.
    intros T. induction T.
    - exact Logic.I.
    - intros [g w] Hh J. exists G, (k' (fst (f w))). cbn [fst snd]. specialize (H w). destruct (f w) as [x w'] eqn:Ef. cbn [fst snd] in *.
      split; [assumption|]. split; [apply oc_refl|exact J].
    - intros [g w] Hh J. eexists _, q. cbn [say_step fst snd g_heap]. split; [exact T|]. split; [apply oc_refl|exact J].
    - intros [g w] Hh J. unfold field_step. cbn [fst snd] in *. apply List.Forall_app in J as [_ J]. apply List.Forall_cons_iff in J as [Hlg J].
      destruct (sl_append _ _ _ _) as [s h'] eqn:Ea. cbn [fst snd g_heap].
      destruct (wgood_append _ _ _ _ _ (lg_debug lg) Hh (wgood_fields _ _ _ _ Hlg) Ea) as [OC Hs].
      eexists _, q. split; [apply H|]. split; [exact OC|]. constructor; [eapply wgood_fields; exact Hs|].
      constructor; [eapply wgood_mono; eauto|]. eapply List.Forall_impl; [|exact J]. intros y. eapply wgood_mono; eauto.
    - destruct p as [|X f k]; [exact Logic.I|]. intros x Hh J. apply IHT; [exact Hh|]. apply List.Forall_app in J. apply J.
    - destruct p as [|X f k]; [exact Logic.I|]. intros x Hh J. apply IHT; [exact Hh|]. now constructor.
  Qed.
  Definition winv_pool h (pl : list (prog LW lib_reply)) : Prop :=
    forall t p, pl !! t = Some p -> exists who okl okd G q, traced txt room who okl okd same G p q /\ Forall (wgood h) G.
  Lemma pool_kept pl pl' x x' : steps pl x pl' x' -> length h0 <= length (g_heap (fst x)) -> winv_pool (g_heap (fst x)) pl ->
    only_changed clear (g_heap (fst x)) (g_heap (fst x')).
  Proof.
    induction 1 as [|t X f k pool x pool' x' Hp St IH]; intros Hh J; [apply oc_refl|].
    destruct (J _ _ Hp) as (who & okl & okd & G & q & T & V). destruct (traced_weak _ _ _ _ _ _ _ T x Hh V) as (G' & q' & T' & OC & V').
    eapply oc_trans; [exact OC|]. apply IH; [destruct OC; lia|]. intros u p Hu. destruct (decide (u = t)) as [->|Ne].
    - rewrite list_lookup_insert in Hu by now apply lookup_lt_Some in Hp. injection Hu as <-. eauto 10.
    - rewrite list_lookup_insert_ne in Hu by congruence. destruct (J _ _ Hu) as (who1 & okl1 & okd1 & G1 & q1 & T1 & V1).
      exists who1, okl1, okd1, G1, q1. split; [exact T1|]. eapply List.Forall_impl; [|exact V1]. intros y. eapply wgood_mono; eauto.
  Qed.
End Pool.

(** The bytes of the callers' contexts. *)
Definition prot_of (calls : list (option logger * lib_call)) (a i : nat) : Prop :=
  exists t lg c, calls !! t = Some (Some lg, c) /\ a = sl_arr (lg_ctx lg) /\ sl_off (lg_ctx lg) <= i < sl_off (lg_ctx lg) + sl_len (lg_ctx lg).
Lemma changes_kept calls h h' : loggers_ok h calls -> only_changed (fun a i => ~ prot_of calls a i) h h' ->
  loggers_ok h' calls /\ forall t lg c, calls !! t = Some (Some lg, c) -> contents h' (lg_ctx lg) = contents h (lg_ctx lg).
Proof.
  intros Ok OC. split.
  - intros t lg c Hc. destruct (Ok _ _ _ Hc) as [K Hl]. split; [eapply oc_ok; eauto|]. destruct OC. lia.
  - intros t lg c Hc. destruct (Ok _ _ _ Hc) as [K Hl]. eapply oc_contents; [exact OC|exact K|]. intros i Hi Np. apply Np. exists t, lg, c. split; [exact Hc|]. split; [reflexivity|lia].
Qed.
Section Kept.
  Context {S I : Type} (txt : bytes -> bytes) (room : nat -> list byte) (e : env) (io : provider S) (L : lib) (fuel : nat).
  Notation LW := (logs * world S I)%type.
  Lemma pool_changes calls (pl : list (prog LW lib_reply)) x pl' x' :
    loggers_ok (g_heap (fst x)) calls -> same_or_apart calls ->
    (forall u p, pl !! u = Some p -> exists who t ctx c, calls !! t = Some (ctx, c) /\ p = lib_do_l txt room who e io L fuel ctx c) ->
    steps pl x pl' x' -> only_changed (fun a i => ~ prot_of calls a i) (g_heap (fst x)) (g_heap (fst x')).
  Proof.
    intros Ok SA Hpl St. eapply pool_kept with (h0 := g_heap (fst x)) (prot := prot_of calls) in St; [exact St|exact fuel| |lia|].
    - intros a i (t' & lg' & c' & Hc' & -> & _). now apply Ok in Hc'.
    - intros u p Hu. apply Hpl in Hu as (who & t & ctx & c1 & Hc1 & ->). do 5 eexists. split; [apply tr_lib_do|]. constructor; [|constructor].
      destruct ctx as [lg1|]; [|exact Logic.I]. cbn [wgood]. destruct (Ok _ _ _ Hc1) as [K Hl]. split; [exact K|]. split; [exact Hl|].
      intros i Hi (t' & lg' & c' & Hc' & Ea & Hb). rewrite <- (SA _ _ _ _ _ _ Hc1 Hc' Ea) in Hb. lia.
  Qed.
  Lemma pool_context_kept calls g (w : world S I) pool' g' w' :
    loggers_ok (g_heap g) calls -> same_or_apart calls -> steps (pool_l txt room e io L fuel calls) (g, w) pool' (g', w') ->
    forall t lg c, calls !! t = Some (Some lg, c) -> contents (g_heap g') (lg_ctx lg) = contents (g_heap g) (lg_ctx lg).
  Proof.
    intros Ok SA St. apply changes_kept; [exact Ok|]. apply (pool_changes calls _ (g, w) _ (g', w') Ok SA) in St; [exact St|].
    intros u p Hu. apply lookup_pool in Hu as (ctx & c1 & Hc1 & ->). eauto 10.
  Qed.
End Kept.

(** ** One call at a time *)
Lemma run_steps {W A} (p : prog W A) : forall w, steps [p] w [Ret (fst (run p w))] (snd (run p w)).
Proof. induction p as [a|X f k IH]; intros w; cbn [run]; [constructor|]. eapply (s_step 0); [reflexivity|]. cbn. destruct (f w) as [x w1]. apply IH. Qed.
Section Alone.
  Context {S I : Type} (txt : bytes -> bytes) (room : nat -> list byte) (e : env) (io : provider S) (L : lib) (fuel : nat).
  Notation LW := (logs * world S I)%type.
  Lemma alone_lines o c (x : LW) r x' : loggers_ok (g_heap (fst x)) [(o, c)] -> run (lib_do_l txt room 0 e io L fuel o c) x = (r, x') ->
    exists new, g_lines (fst x') = new ++ g_lines (fst x) /\ forall l, In l new ->
      exists lg, o = Some lg /\ lg_debug lg = true /\ own_line (I:=I) txt e io L c (contents (g_heap (fst x)) (lg_ctx lg)) l.
  Proof.
    intros Ok Hr. pose proof (run_steps (lib_do_l txt room 0 e io L fuel o c) x) as St. rewrite Hr in St. cbn [fst snd] in St. destruct x as [g w], x' as [g' w'].
    destruct (pool_lines txt room e io L fuel [(o, c)] (g_heap g) g w [Ret r] g' w' eq_refl Ok) as (new & En & H); [|exact St|].
    - intros t lg c1 H. right. intros t' lg' c' Ne H'. destruct t as [|t]; [|discriminate H]. destruct t'; [congruence|discriminate H'].
    - exists new. split; [exact En|]. intros l Hl. destruct (H _ Hl) as (lg & c1 & Hc & Db & Ow). destruct (l_who l) as [|n]; [|discriminate Hc].
      injection Hc as -> ->. eauto.
  Qed.
  Lemma in_turn_kept calls pre (x x1 : LW) : in_turn txt room e io L fuel pre x x1 -> loggers_ok (g_heap (fst x)) calls -> same_or_apart calls ->
    (forall y, In y pre -> exists t, calls !! t = Some y) ->
    loggers_ok (g_heap (fst x1)) calls /\ forall t lg c, calls !! t = Some (Some lg, c) -> contents (g_heap (fst x1)) (lg_ctx lg) = contents (g_heap (fst x)) (lg_ctx lg).
  Proof.
    induction 1 as [|ctx c pre x r x1 x2 Hr It IH]; intros Ok SA Hin; [auto|].
    pose proof (run_steps (lib_do_l txt room 0 e io L fuel ctx c) x) as St. rewrite Hr in St. cbn [fst snd] in St.
    apply (pool_changes txt room e io L fuel calls _ x _ x1 Ok SA) in St.
    - destruct (changes_kept _ _ _ Ok St) as [Ok1 E1]. destruct IH as [Ok2 E2]; [exact Ok1|exact SA|intros y Hy; apply Hin; now right|].
      split; [exact Ok2|]. intros t lg c1 Hc. rewrite (E2 _ _ _ Hc). eauto.
    - intros [|u] p Hu; [|discriminate Hu]. injection Hu as <-. destruct (Hin (ctx, c)) as (t & Ht); [now left|]. eauto 10.
  Qed.
  Lemma in_turn_lines pre o c post (x x1 : LW) r x2 : loggers_ok (g_heap (fst x)) (pre ++ (o, c) :: post) -> same_or_apart (pre ++ (o, c) :: post) ->
    in_turn txt room e io L fuel pre x x1 -> run (lib_do_l txt room 0 e io L fuel o c) x1 = (r, x2) ->
    exists new, g_lines (fst x2) = new ++ g_lines (fst x1) /\ forall l, In l new ->
      exists lg, o = Some lg /\ lg_debug lg = true /\ own_line (I:=I) txt e io L c (contents (g_heap (fst x)) (lg_ctx lg)) l.
  Proof.
    intros Ok SA It Hr. destruct (in_turn_kept _ _ _ _ It Ok SA) as [Ok1 E1].
    { intros y Hy. apply elem_of_list_In, elem_of_list_lookup in Hy as (t & Ht). exists t. now apply lookup_app_l_Some. }
    assert (Hc : (pre ++ (o, c) :: post) !! length pre = Some (o, c)) by now rewrite lookup_app_r, Nat.sub_diag.
    destruct (alone_lines o c x1 r x2) as (new & En & H); [|exact Hr|].
    - intros [|t] lg c1 Ht; [|discriminate Ht]. injection Ht as -> ->. eapply Ok1; eassumption.
    - exists new. split; [exact En|]. intros l Hl. destruct (H l Hl) as (lg & -> & Db & Ow). exists lg. rewrite <- (E1 _ _ _ Hc). auto.
  Qed.
End Alone.
